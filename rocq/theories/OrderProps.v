(** Property C139: the order of x2mesh. *)
From Coq Require Import List Bool Arith ZArith QArith Reals Permutation Lia Lqa.
From Verif Require Import Base LinAlg BCModel PileModel PileSpec PileProofs MeshModel MeshSpec MeshProofs StressModel StressProps BeamModel SolveModel SolveSpec WinklerModel CreateModel WholeModel WholeProps SessionModel
  FullModel FullSpec FullProps LiveModel LiveWitness LiveProps OrderSpec OrderProofs.
Import ListNotations.
Local Open Scope Q_scope.

(** An analysis of a pile in soil gives the same tables, or the same error, for x2mesh in another order, with
    repetitions, and with borders of sections and layers that have a node anyway. *)
Theorem C139_analysis : forall rnd ch sort solve ty circ E nu o sections ground water ys x x' c cs k,
  proper sections -> same_requests sections (map y_layer ys) x x' ->
  soil_analysis rnd ch sort solve ty circ E nu o sections ground water ys x c cs k = soil_analysis rnd ch sort solve ty circ E nu o sections ground water ys x' c cs k.
Proof. intros. apply analysis_same, construct_requests; assumption. Qed.
Print Assumptions C139_analysis.

(** So does every program of calls on the model. *)
Theorem C139_program : forall rnd ch sort solve ty circ E nu o sections ground water ys x x' c prog,
  proper sections -> same_requests sections (map y_layer ys) x x' ->
  live rnd ch sort solve ty circ E nu o sections ground water ys x c prog = live rnd ch sort solve ty circ E nu o sections ground water ys x' c prog.
Proof. intros. apply live_same, construct_requests; assumption. Qed.
Print Assumptions C139_program.

(** The same for a pile without soil. *)
Theorem C139_bare : forall solve ty circ E nu sections x x' c calls, proper sections -> same_requests sections [] x x' ->
  analyse solve ty circ E nu sections x c calls = analyse solve ty circ E nu sections x' c calls.
Proof. intros. apply bare_same. intros p b M B y. split; eapply bare_wanted; eauto using requests_sym. Qed.
Print Assumptions C139_bare.

(** The order of the sections does not matter either. *)
Theorem C139_sections : forall rnd ch sort solve ty circ E nu o sections sections' ground water ys x c cs k prog,
  proper sections -> Permutation sections sections' ->
  soil_analysis rnd ch sort solve ty circ E nu o sections ground water ys x c cs k = soil_analysis rnd ch sort solve ty circ E nu o sections' ground water ys x c cs k /\
  live rnd ch sort solve ty circ E nu o sections ground water ys x c prog = live rnd ch sort solve ty circ E nu o sections' ground water ys x c prog /\
  analyse solve ty circ E nu sections x c cs = analyse solve ty circ E nu sections' x c cs.
Proof.
  intros rnd ch sort solve ty circ E nu o sections sections' ground water ys x c cs k prog P H. unfold soil_analysis, live, construct, analyse.
  rewrite (make_pile_order _ _ P H). auto.
Qed.
Print Assumptions C139_sections.

(** The site of C107 with -1 asked for twice, and with the ends -3 of a section and -4 of a layer: the tables
    that the analysis of C107 returns. *)
Example C139_example : proper ex_l /\ same_requests ex_l (map y_layer soil0) [-1] [-4; -1; -3; -1] /\
  forall solve nu cs mi, solver_ok solve -> -(3#4) <= nu -> exists r, soil_analysis rnd0 ch0 sort0 solve EulerBernoulli true 210 nu all_on ex_l 0 (-1) soil0 [-4; -1; -3; -1] 2 cs mi = Ok (Some r).
Proof.
  assert (P : proper ex_l) by (intros s [<-|[<-|[]]]; reflexivity).
  assert (H : same_requests ex_l (map y_layer soil0) [-1] [-4; -1; -3; -1]).
  { intros y. rewrite !contains_cons. pose proof (contains_nil y). split; [tauto|]. intros [E|[E|[E|[E|[]]]]]; [|tauto| |tauto|tauto]; right.
    - right. exists (mkLayer 0 (-4) 18). split; [right; left; reflexivity|]. split; [right; symmetry; exact E|].
      exists (mkSection (-3) (-8) 2 3 4 1 1 1 1). split; [left; reflexivity|]. cbn. lra.
    - left. exists (mkSection (-3) (-8) 2 3 4 1 1 1 1). split; [left; reflexivity|]. left. symmetry; exact E. }
  split; [exact P|]. split; [exact H|]. intros solve nu cs mi SV N. destruct C107_example as (_ & _ & _ & _ & _ & _ & A).
  destruct (A solve nu cs mi SV N) as [r R]. exists r. rewrite <- R. symmetry. apply C139_analysis; assumption.
Qed.
