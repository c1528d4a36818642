(** C84, C88, C140: the base reports of every analysis, the values given by keyword, and what a parameter is at a depth. *)
From Coq Require Import String Reals List Bool Arith QArith Qabs Lqa Lra Lia.
From Verif Require Import Base SpringModel SpringProofs WinklerModel SolveModel BeamModel LinAlg SolveSpec SpringWitness WinklerProps WinklerWitness ResultModel ResultProps AxialModel LateralModel FieldModel FieldProps ObjectModel.
Import ListNotations.

(** ** C88: a declared field has the value given for it, and its default only if none is given *)
Section Keywords.
Context {V : Type}.
Lemma lookup_given : forall (kw : list (string * V)) k v, NoDup (map fst kw) -> In (k, v) kw -> lookup k kw = Some v.
Proof.
  induction kw as [|[a w] t IH]; intros k v ND H; [destruct H|]. inversion ND as [|? ? NI ND']; subst. cbn [lookup].
  destruct H as [H|H].
  - injection H as -> ->. rewrite String.eqb_refl. reflexivity.
  - destruct (String.eqb a k) eqn:E; [|exact (IH _ _ ND' H)]. apply String.eqb_eq in E. subst a. exfalso. apply NI.
    change k with (fst (k, v)). apply in_map. exact H.
Qed.
Lemma lookup_absent : forall (kw : list (string * V)) k, ~ In k (map fst kw) -> lookup k kw = None.
Proof.
  induction kw as [|[a w] t IH]; intros k H; [reflexivity|]. cbn [lookup]. destruct (String.eqb a k) eqn:E.
  - apply String.eqb_eq in E. subst a. exfalso. apply H. left. reflexivity.
  - apply IH. intros C. apply H. right. exact C.
Qed.
End Keywords.

Theorem C88_given_values : forall V e (fields : list (string * option V)) kw vs, NoDup (map fst kw) -> fill e fields kw = Ok vs ->
  forall i name d, nth_error fields i = Some (name, d) ->
  (forall v, In (name, v) kw -> nth_error vs i = Some v) /\ (~ In name (map fst kw) -> exists v, d = Some v /\ nth_error vs i = Some v).
Proof.
  intros V e fields kw vs ND E i name d N. destruct (C88_fields_filled V e fields kw vs E) as [LV H].
  assert (LT : (i < length vs)%nat) by (rewrite LV; apply nth_error_Some; rewrite N; discriminate).
  destruct (nth_error vs i) as [v|] eqn:NV; [|apply nth_error_None in NV; lia]. specialize (H i name d v N NV). split.
  - intros w IW. pose proof (lookup_given kw name w ND IW) as L. destruct H as [H|[H _]]; congruence.
  - intros NI. pose proof (lookup_absent kw name NI) as L. destruct H as [H|[_ H]]; [congruence|]. exists v. split; [exact H|reflexivity].
Qed.
Print Assumptions C88_given_values.

(** A field without default for which nothing is given refuses the object *)
Theorem C88_missing_value : forall V e (fields : list (string * option V)) kw name, In (name, None) fields -> ~ In name (map fst kw) ->
  fill e fields kw = Err ValueError.
Proof.
  intros V e fields kw name IN NI. unfold fill. destruct (match e with Allow => false | Forbid => _ end); [reflexivity|].
  pose proof (lookup_absent kw name NI) as L. induction fields as [|[nm df] t IH]; [destruct IN|]. cbn [ConicModel.mapM fst snd].
  destruct IN as [IN|IN].
  - injection IN as -> ->. rewrite L. reflexivity.
  - rewrite (IH IN). destruct (lookup nm kw) as [w|]; [|destruct df as [w|]]; reflexivity.
Qed.
Print Assumptions C88_missing_value.

Example C88_given_example : let fields := [("Su"%string, None); ("t_multiplier"%string, Some 1%nat); ("z_multiplier"%string, Some 1%nat)] in
  let kw := [("z_multiplier"%string, 7%nat); ("Su"%string, 50%nat)] in
  NoDup (map fst kw) /\ fill Forbid fields kw = Ok [50; 1; 7]%nat /\ fill Forbid fields [("z_multiplier"%string, 7%nat)] = Err ValueError.
Proof.
  split; [|split; reflexivity]. apply NoDup_cons; [|apply NoDup_cons; [intros []|apply NoDup_nil]]. intros [H|[]]. discriminate H.
Qed.

(** ** C84: the base springs of every analysis with soil *)
Local Open Scope Q_scope.
(** the greatest of some numbers *)
Definition greatest (l : list Q) (x : Q) : Prop := (forall y, In y l -> y <= x) /\ exists y, In y l /\ y == x.
(** [rep] is the report of a base spring that holds [c] and is displaced by [u]; the greatest number is looked for
    among the resistances and the displacements of the curve together (C40) *)
Definition base_reports (u : option Q) (c : SpringModel.curve) (rep : option Q * Q) : Prop :=
  greatest (map snd c ++ map fst c) (snd rep) /\
  match u with
  | None => fst rep = None
  | Some u => exists k, base_spring u c Secant = Ok k /\ exists p, fst rep = Some p /\ p == k * Qabs u
  end.

Lemma greatest_qmax : forall l, l <> [] -> greatest l (qmax l).
Proof.
  intros l NE. split; [intros y; apply qmax_ge|]. destruct (qmax_in l NE) as (x & I & E). exists x. split; [exact I|]. symmetry. exact E.
Qed.
Lemma base_report_is : forall u c rep, c <> [] -> base_report u c = Ok rep -> base_reports u c rep.
Proof.
  intros u c rep NE H. assert (G : greatest (map snd c ++ map fst c) (qmax (map snd c ++ map fst c))) by (apply greatest_qmax; destruct c; [congruence|discriminate]).
  unfold base_report in H. destruct u as [u|].
  - unfold base_mobilised in H. destruct (base_spring u c Secant) as [k|e] eqn:B; cbn [bind] in H; [|discriminate H]. injection H as <-.
    split; [exact G|]. cbn [fst snd]. exists k. split; [exact B|]. eexists. split; [reflexivity|]. ring.
  - injection H as <-. split; [exact G|reflexivity].
Qed.

Theorem C84_base_springs : forall solve M z a F U r max_iter w, a_hb a <> [] -> a_mb a <> [] ->
  winkler_result solve M z (Some a) F U r max_iter = Ok (Some w) ->
  exists o h m, winkler_model solve M F U r max_iter = Ok o /\ res_hb w = Some h /\ res_mb w = Some m /\
    base_reports (option_map (fun v => v (3 * w_n M + 1)%nat) (o_d o)) (a_hb a) h /\
    base_reports (option_map (fun v => v (3 * w_n M + 2)%nat) (o_d o)) (a_mb a) m.
Proof.
  intros solve M z a F U r mx w NH NM H. cbn [winkler_result] in H. destruct (winkler_model solve M F U r mx) as [o|e]; cbn [bind] in H; [|discriminate H].
  unfold result_of in H. destruct (springs_mob _ _ _ _ _) as [rows|e]; cbn [bind] in H; [|discriminate H].
  destruct (base_report _ (a_hb a)) as [h|e] eqn:BH; cbn [bind] in H; [|discriminate H].
  destruct (base_report _ (a_mb a)) as [m|e] eqn:BM; cbn [bind] in H; [|discriminate H].
  injection H as <-. cbn [res_hb res_mb]. exists o, h, m. split; [reflexivity|]. split; [reflexivity|]. split; [reflexivity|].
  replace (3 * w_n M + 1)%nat with (size M - 2)%nat by (unfold size; lia). replace (3 * w_n M + 2)%nat with (size M - 1)%nat by (unfold size; lia).
  split; apply base_report_is; assumption.
Qed.
Print Assumptions C84_base_springs.

Lemma solve_with_soil : forall solve M z a F U r, solve_model solve M z (Some a) F U r = winkler_result solve M z (Some a) F U r 100.
Proof. reflexivity. Qed.
(** an analysis that ends with numbers, and base springs on both sides of it *)
Example C84_base_example : exists w, winkler_result gauss_solver soil1 [0; -(1); -(2)] (Some arrays0) small_load zero free 100 = Ok (Some w) /\ a_hb arrays0 <> [] /\ a_mb arrays0 <> [].
Proof.
  destruct C85_example as (w & rows & E & _). exists w. rewrite solve_with_soil in E. split; [exact E|]. cbn [arrays0 a_hb a_mb]. assert (N : py0 <> []) by (unfold py0; discriminate). exact (conj N N).
Qed.

(** ** C140: a parameter at a depth below the top of its layer, for every kind of value *)
Local Open Scope R_scope.
Theorem C140_parameter : forall depth height X, 0 < height ->
  (forall x, exists v, current_value (VFloat x) depth height X = Ok v /\ v = x) /\
  (forall x, exists v, current_value (VList [x]) depth height X = Ok v /\ v = x) /\
  (forall a b, exists v, current_value (VList [a; b]) depth height X = Ok v /\ v * height = a * (height - depth) + b * depth) /\
  (forall l, (length l = 0 \/ 3 <= length l)%nat -> current_value (VList l) depth height X = Err TypeError) /\
  (forall f, current_value (VFunction f) depth height X = Ok (f X)) /\
  (forall f, current_value (VObject f) depth height X = Err TypeError) /\
  (forall v, current_value v depth height X = at_current_depth (held v) depth height X).
Proof.
  intros depth height X H.
  assert (D : forall a b, exists v, at_depth a b depth height = Ok v /\ v * height = a * (height - depth) + b * depth).
  { intros a b. unfold at_depth, PisaModel.nonzero. destruct (Req_EM_T height 0) as [E|_]; [exfalso; Lra.lra|]. eexists. split; [reflexivity|]. field. Lra.lra. }
  assert (S1 : forall x, exists v, at_depth x x depth height = Ok v /\ v = x).
  { intros x. destruct (D x x) as (v & E & V). exists v. split; [exact E|]. apply (Rmult_eq_reg_r height); [|Lra.lra]. rewrite V. ring. }
  split; [exact S1|]. split; [exact S1|]. split; [exact D|]. split.
  - intros [|a [|b [|c l]]] [L|L]; cbn [length] in L; try lia; reflexivity.
  - split; [reflexivity|]. split; [reflexivity|]. intros [x|[|a [|b [|c l]]]|f|f]; reflexivity.
Qed.
Print Assumptions C140_parameter.
