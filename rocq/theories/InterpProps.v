(** The analysis does not depend on how np.interp searches for the segment. *)
From Coq Require Import List Bool Arith ZArith QArith Qabs Qminmax Reals Qreals Permutation Lia Lqa.
From Verif Require Import Base LinAlg BCModel PileModel StressModel BeamModel SolveModel SolveSpec SolveProofs SpringModel SpringSpec SpringProofs SpringProper WinklerModel
  MeshModel MeshSpec StressSpec StressProps CreateModel CreateProps WholeModel WholeSpec AxialModel LateralModel FullModel FullSpec InterpModel InterpSpec InterpProofs InterpFullModel InterpSiteProofs AnalysisProofs FullProps.
Import ListNotations SpringModel.
Local Open Scope Q_scope.

(** ** C133 *)
(** What numpy promises settles the value where the abscissae are in order or the ordinates all the same. *)
Theorem C133_value : forall f g x pts, np_interp f -> np_interp g -> pts <> [] -> ordered pts \/ flat pts -> f x pts == g x pts.
Proof.
  intros f g x pts F G NE [OR|FL]; [rewrite (f_order f F pts x NE OR), (f_order g G pts x NE OR)|rewrite (f_flat f F pts x NE FL), (f_flat g G pts x NE FL)]; reflexivity.
Qed.
Print Assumptions C133_value.

(** The bisection of numpy keeps the promise wherever it starts, also for abscissae in disorder. *)
Theorem C133_numpy : forall start, fair_start start -> np_interp (numpy_interp start).
Proof. exact numpy_ok. Qed.
Print Assumptions C133_numpy.

(** So does the function the other theorems are about, on abscissae in order. *)
Theorem C133_model : forall x pts, pts <> [] -> ordered pts -> interpolated pts x (interp x pts).
Proof. intros x pts NE OR. apply model_interp; auto. Qed.
Print Assumptions C133_model.

(** Stiffness matrix and analysis of a model whose springs are in order *)
Theorem C133_stiffness : forall f g M u k, np_interp f -> np_interp g -> searchable M ->
  match build_by f M u k, build_by g M u k with Ok K, Ok K' => forall i j, K i j == K' i j | Err e, Err e' => e = e' | _, _ => False end.
Proof.
  intros f g M u k F G SE. pose proof (build_same f F M u k SE) as A. pose proof (build_same g G M u k SE) as B.
  destruct (build M u k), (build_by f M u k), (build_by g M u k); cbn [req] in *; try contradiction; [|congruence]. intros i j. rewrite (A i j), (B i j). reflexivity.
Qed.
Print Assumptions C133_stiffness.

Lemma outcome_trans : forall n o o' o'', same_outcome n o o' -> same_outcome n o o'' -> same_outcome n o' o''.
Proof.
  intros n o o' o'' (A1 & A2 & A3 & A4) (B1 & B2 & B3 & B4).
  assert (V : forall x y z, same_vectors n x y -> same_vectors n x z -> same_vectors n y z).
  { intros [x|] [y|] [z|] X Y; cbn in *; try contradiction; auto. intros i Hi. rewrite <- (X i Hi). apply Y. exact Hi. }
  unfold same_outcome. split; [eapply V; eauto|]. split; [eapply V; eauto|]. split; [congruence|]. revert B4. generalize (o_hist o''). clear - A4. induction A4 as [|x y l l' E A IH]; intros h B; inversion B as [|x' z m m' E' B']; subst; constructor; auto.
  intros i Hi. rewrite <- (E i Hi). apply E'. exact Hi.
Qed.

Theorem C133_analysis : forall f g solve M F U0 r max_iter, np_interp f -> np_interp g -> solver_ok solve -> searchable M ->
  match winkler_by f solve M F U0 r max_iter, winkler_by g solve M F U0 r max_iter with Ok o, Ok o' => same_outcome (size M) o o' | Err e, Err e' => e = e' | _, _ => False end.
Proof.
  intros f g solve M F U0 r mi NF NG SO SE. pose proof (analysis_same f solve M F U0 r mi NF SO SE) as A. pose proof (analysis_same g solve M F U0 r mi NG SO SE) as B.
  destruct (winkler_model solve M F U0 r mi), (winkler_by f solve M F U0 r mi), (winkler_by g solve M F U0 r mi); cbn [req] in *; try contradiction; [|congruence]. eapply outcome_trans; eauto.
Qed.
Print Assumptions C133_analysis.

(** The springs of a soundly described site are in order, except that the resistances of a cyclic clay fall; the rotational
    springs of a clay do not depend on them. *)
Theorem C133_site : forall rnd ch sort o sections gr wt ys x c p t b m B ks mc, storage rnd -> fair_chance ch -> (forall rows, ascending_of (sort rows) rows) ->
  sound_site o sections gr wt ys x c p t b m -> construct rnd ch sort o sections gr wt ys x c = Ok (Some B) ->
  searchable (stiffness_model o p m ks mc (springs_of (b_made B))).
Proof. exact springs_in_order. Qed.
Print Assumptions C133_site.

Theorem C133_site_analysis : forall f g rnd ch sort o sections gr wt ys x c p t b m solve ty circ E nu cs max_iter, np_interp f -> np_interp g -> solver_ok solve ->
  storage rnd -> fair_chance ch -> (forall rows, ascending_of (sort rows) rows) -> sound_site o sections gr wt ys x c p t b m ->
  let run h := soil_analysis_by h rnd ch sort solve ty circ E nu o sections gr wt ys x c cs max_iter in
  match run f, run g with Ok (Some r), Ok (Some r') => same_outcome (3 * length (elements_of m) + 3) r r' | Ok None, Ok None => True | Err e, Err e' => e = e' | _, _ => False end.
Proof.
  intros f g rnd ch sort o sections gr wt ys x c p t b m solve ty circ E nu cs mi NF NG SV ST FC SO SS. cbv zeta. unfold soil_analysis_by.
  destruct (C104_constructed rnd ch sort o sections gr wt ys x c p t b m ST FC SO SS) as (st & MD & CO & _). rewrite CO. cbn [bind]. unfold solve_built_by. cbn [b_mesh b_pile b_made].
  destruct (global_forces _ _) as [tf|]; cbn [bind]; [|reflexivity]. destruct (global_disp _ _) as [td|]; cbn [bind]; [|reflexivity]. destruct (global_restrained _ _) as [tr|]; cbn [bind]; [|reflexivity].
  destruct (elem_matrices ty circ E nu p (elements_of m)) as [ks|]; cbn [bind]; [|reflexivity].
  destruct (if on_mt o then moment_coefs ty circ E nu p (elements_of m) else Ok (Some [])) as [mc|]; cbn [bind]; [|reflexivity].
  destruct ks as [ks|], mc as [mc|], (nan_free (length (elements_of m)) MD); try exact Logic.I.
  pose proof (C133_site rnd ch sort o sections gr wt ys x c p t b m _ ks mc ST FC SO SS CO) as SE. cbn [b_made] in SE.
  pose proof (C133_analysis f g solve _ (dof_vector tf) (dof_vector td) (dof_flags tr) mi NF NG SV SE) as A.
  destruct (winkler_by f _ _ _ _ _ _), (winkler_by g _ _ _ _ _ _); cbn [bind]; exact A.
Qed.
Print Assumptions C133_site_analysis.

(** The result is that of the analysis of the other theorems. *)
Theorem C133_this_analysis : forall rnd ch sort o sections gr wt ys x c solve ty circ E nu cs max_iter,
  soil_analysis_by interp rnd ch sort solve ty circ E nu o sections gr wt ys x c cs max_iter = soil_analysis rnd ch sort solve ty circ E nu o sections gr wt ys x c cs max_iter.
Proof. reflexivity. Qed.
Print Assumptions C133_this_analysis.

(** Resistances in disorder, moments that depend on them: two searches of numpy give two stiffnesses. *)
Definition whole (pts : list (Q * Q)) (x : Q) : nat * nat := (0%nat, length pts).
Definition guessed (pts : list (Q * Q)) (x : Q) : nat * nat := if (2 <=? length pts)%nat && Qltb x (fst (corner pts 1)) then (0%nat, 1%nat) else (0%nat, length pts).
Lemma whole_fair : fair_start whole.
Proof. intros pts x. cbn. repeat split; auto; lia. Qed.
Lemma guessed_fair : fair_start guessed.
Proof.
  intros pts x. unfold guessed. destruct (Nat.leb_spec 2 (length pts)) as [L|L]; cbn [andb]; [|repeat split; auto; lia].
  destruct (Qltb x (fst (corner pts 1))) eqn:X; [apply Qltb_true in X|]; repeat split; auto; lia.
Qed.

Definition falling : list Q := [0; 4; 2; 3].
Definition moments : list (list (Q * Q)) := [[(1#2, 0); (1#2, 0); (1#2, 0); (1#2, 0)]; [(1, 1); (1, 5); (1, 10); (1, 10)]; [(2, 2); (2, 6); (2, 12); (2, 12)]].

Theorem C133_unsorted_refuted : rotations_in_order moments (length falling) /\ (exists p q, In p falling /\ In q falling /\ q < p) /\
  exists f g k k', np_interp f /\ np_interp g /\ mt_spring_by f 1 (5#2) falling moments Secant = Ok k /\ mt_spring_by g 1 (5#2) falling moments Secant = Ok k' /\ ~ k == k'.
Proof.
  split.
  - split; [intros col [<-|[<-|[<-|[]]]]; reflexivity|]. split.
    + intros col q [<-|[<-|[<-|[]]]] I; cbn in I; repeat (destruct I as [<-|I]; [discriminate|]); destruct I.
    + intros i j k I J. cbn in J. destruct i as [|[|[|i]]], j as [|[|[|j]]]; try lia; destruct k as [|[|[|[|k]]]]; cbn; try discriminate; destruct k; discriminate.
  - split; [exists 4, 2; cbn; repeat split; auto; reflexivity|].
    exists (numpy_interp whole), (numpy_interp guessed). eexists. eexists. split; [apply numpy_ok, whole_fair|]. split; [apply numpy_ok, guessed_fair|].
    split; [vm_compute; reflexivity|]. split; [vm_compute; reflexivity|]. discriminate.
Qed.
Print Assumptions C133_unsorted_refuted.

(** A site with a sand above a clay, all springs on *)
Example C133_example : forall f g solve nu cs mi, np_interp f -> np_interp g -> solver_ok solve -> -(3#4) <= nu ->
  exists r r', soil_analysis_by f rnd0 ch0 sort0 solve EulerBernoulli true 210 nu all_on ex_l 0 (-1) soil0 [-1] 2 cs mi = Ok (Some r) /\
    soil_analysis_by g rnd0 ch0 sort0 solve EulerBernoulli true 210 nu all_on ex_l 0 (-1) soil0 [-1] 2 cs mi = Ok (Some r') /\ same_outcome (3 * length (elements_of mesh1) + 3) r r'.
Proof.
  intros f g solve nu cs mi F G SV PN. destruct C107_example as (ST & FC & SO & SS & _ & _ & AN). destruct (AN solve nu cs mi SV PN) as (r0 & E0).
  assert (X : forall h, np_interp h -> exists r, soil_analysis_by h rnd0 ch0 sort0 solve EulerBernoulli true 210 nu all_on ex_l 0 (-1) soil0 [-1] 2 cs mi = Ok (Some r)).
  { intros h H. revert E0. unfold soil_analysis, soil_analysis_by. destruct (C104_constructed rnd0 ch0 sort0 all_on ex_l 0 (-1) soil0 [-1] 2 ex_p 2 (-8) mesh1 ST FC SO SS) as (st & MD & CO & _). rewrite CO. cbn [bind].
    unfold solve_built, solve_built_by. cbn [b_mesh b_pile b_made].
    destruct (global_forces _ _) as [tf|]; cbn [bind]; [|discriminate]. destruct (global_disp _ _) as [td|]; cbn [bind]; [|discriminate]. destruct (global_restrained _ _) as [tr|]; cbn [bind]; [|discriminate].
    destruct (elem_matrices _ _ _ _ _ _) as [ks|]; cbn [bind]; [|discriminate]. destruct (if on_mt all_on then _ else _) as [mc|]; cbn [bind]; [|discriminate].
    destruct ks as [ks|], mc as [mc|], (nan_free (length (elements_of mesh1)) MD); try discriminate.
    pose proof (C133_site rnd0 ch0 sort0 all_on ex_l 0 (-1) soil0 [-1] 2 ex_p 2 (-8) mesh1 _ ks mc ST FC SO SS CO) as SE. cbn [b_made] in SE.
    pose proof (analysis_same h solve _ (dof_vector tf) (dof_vector td) (dof_flags tr) mi H SV SE) as A.
    match type of A with req _ ?a ?b => change (bind a (fun r => Ok (Some r)) = Ok (Some r0) -> exists r, bind b (fun r => Ok (Some r)) = Ok (Some r)); destruct a as [oa|], b as [ob|] end;
      cbn [bind req] in *; try contradiction; try discriminate. intros _. eauto. }
  destruct (X f F) as (r & E1), (X g G) as (r' & E2). exists r, r'. split; [exact E1|]. split; [exact E2|].
  pose proof (C133_site_analysis f g rnd0 ch0 sort0 all_on ex_l 0 (-1) soil0 [-1] 2 ex_p 2 (-8) mesh1 solve EulerBernoulli true 210 nu cs mi F G SV ST FC SO SS) as S0. cbv beta zeta in S0. rewrite E1, E2 in S0. exact S0.
Qed.

Example C133_search_exists : np_interp (numpy_interp whole) /\ np_interp (numpy_interp guessed) /\ numpy_interp guessed (5#2) [(0, 1); (4, 5); (2, 10); (3, 10)] == 7#2 /\ numpy_interp whole (5#2) [(0, 1); (4, 5); (2, 10); (3, 10)] == 10.
Proof. split; [apply numpy_ok, whole_fair|]. split; [apply numpy_ok, guessed_fair|]. split; vm_compute; reflexivity. Qed.
