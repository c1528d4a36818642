(** C126: which results depend on random(). The spring functions place some of their points at random displacements
    (utils/py_curves.py, tz_curves.py, qz_curves.py: `random_()`); the points lie where the curve is flat, so that the springs
    act alike whatever was drawn, except for the modified Matlock clay, whose rise is sampled at random. *)
From Coq Require Import List Bool Arith ZArith QArith Reals Qreals Permutation Lia Lqa Lra.
From Verif Require Import Base PileModel PileSpec MeshModel MeshSpec StressModel StressSpec StressProps BCModel BeamModel SolveModel SolveSpec SpringModel WinklerModel CreateModel CreateProps WholeModel WholeSpec
  AxialModel LateralModel LateralSpec LateralProofs CapacityModel CapacityProofs MomentProofs StartProofs FullModel FullSpec FullProps UnitSpec RandomSpec RandomProofs PlateauProofs ChanceProofs MatlockProofs.
Import ListNotations.
Local Open Scope Q_scope.

(** ** Axial springs and moment springs are the same whatever was drawn *)
Theorem C126_axial_springs : forall d d' w w' m a ta fp, fair d -> fair d' -> fair_tip w -> fair_tip w' ->
  tz_curve d m a = tz_curve d' m a /\ qz_curve w ta fp m a = qz_curve w' ta fp m a.
Proof. intros. split; [apply tz_same; auto|apply qz_same; auto]. Qed.
Print Assumptions C126_axial_springs.

Theorem C126_moment_springs : forall m u idx u' idx' q, (forall i, 0 <= u i < 1)%R -> (forall i, 0 <= u' i < 1)%R -> sorted_draw m u idx -> sorted_draw m u' idx' ->
  mt_spring_fct m u idx q 0 15 = mt_spring_fct m u' idx' q 0 15.
Proof. exact mt_same. Qed.
Print Assumptions C126_moment_springs.

(** ** p-y springs act alike, except those of the modified Matlock clay *)
Theorem C126_lateral_springs : forall rnd m u u' q, storage rnd -> ~ sampled m -> (forall i, 0 <= u i < 1)%R -> (forall i, 0 <= u' i < 1)%R ->
  good_place q -> LateralProofs.admissible m q 15 -> (0 <= at_X (y_multiplier m) (q_X q))%R ->
  let v := store_curve rnd (py_spring_fct m u q 0 15) in let v' := store_curve rnd (py_spring_fct m u' q 0 15) in
  v = v' \/ exists c c', v = Ok (Some [c]) /\ v' = Ok (Some [c']) /\
    (forall d, resistance c d == resistance c' d) /\ map snd c = map snd c' /\ nth 0 c (0, 0) = nth 0 c' (0, 0) /\ nth 1 c (0, 0) = nth 1 c' (0, 0).
Proof.
  intros rnd m u u' q ST NS U U' G A X v v'. destruct (py_alike rnd ST m u u' q NS U U' G A X) as [E|(c & c' & E & E' & A1 & A2 & A3 & A4 & _)]; [left; exact E|].
  right. exists c, c'. repeat split; auto.
Qed.
Print Assumptions C126_lateral_springs.

(** The full claim, for every model, is false: two draws give springs with different resistances at one displacement. *)
Theorem C126_modified_matlock_refuted : forall rnd Su eps50 kind J ext pm ym q, storage rnd -> precise rnd -> good_place q ->
  LateralProofs.admissible (Modified_Matlock_clay Su eps50 kind J ext pm ym) q 15 -> (0 < at_X pm (q_X q))%R -> (0 < at_X ym (q_X q))%R ->
  exists u u' c c' d, (forall i, 0 <= u i < 1)%R /\ (forall i, 0 <= u' i < 1)%R /\
  store_curve rnd (py_spring_fct (Modified_Matlock_clay Su eps50 kind J ext pm ym) u q 0 15) = Ok (Some [c]) /\
  store_curve rnd (py_spring_fct (Modified_Matlock_clay Su eps50 kind J ext pm ym) u' q 0 15) = Ok (Some [c']) /\ ~ resistance c d == resistance c' d.
Proof.
  intros rnd Su eps50 kind J ext pm ym q ST PR G A P Y. destruct (sampled_differ rnd ST PR Su eps50 kind J ext pm ym q G A P Y) as (c & c' & E & E' & d & N).
  exists none_drawn, mid_drawn, c, c', d. split; [exact none_fair|]. split; [exact mid_fair|]. auto.
Qed.
Print Assumptions C126_modified_matlock_refuted.

(** ** Analyses do not depend on what was drawn *)
Theorem C126_analyses : forall rnd ch ch' sort o sections gr wt ys x c p t b m solve ty circ E nu cs mi, storage rnd -> fair_chance ch -> fair_chance ch' ->
  (forall rows, ascending_of (sort rows) rows) -> sound_site o sections gr wt ys x c p t b m -> solver_ok solve ->
  (on_py o = true -> forall y md, In y ys -> y_lat y = Some md -> ~ sampled md) ->
  same_answer (3 * length (nodes_of m)) (soil_analysis rnd ch sort solve ty circ E nu o sections gr wt ys x c cs mi) (soil_analysis rnd ch' sort solve ty circ E nu o sections gr wt ys x c cs mi).
Proof. intros rnd ch ch' sort o sections gr wt ys x c p t b m solve ty circ E nu cs mi ST FC FC' SO SS SV NS. exact (site_answers rnd sort o sections gr wt ys x c p t b m ST SO SS solve ty circ E nu cs mi ch ch' SV FC FC' NS). Qed.
Print Assumptions C126_analyses.

(** ** Examples *)
Definition ch1 : chance := {| c_py := fun _ _ _ => (1 / 2)%R; c_mt := c_mt ch0; c_tz := c_tz ch0; c_qz := c_qz ch0 |}.
Lemma ch1_fair : fair_chance ch1.
Proof. destruct chance_exists as (_ & A & B & C). split; [intros; cbn; lra|]. split; [exact A|]. split; [exact B|exact C]. Qed.

(** The site of C104-C107, with an API clay whose p-y points are drawn, under two fair draws *)
Example C126_example : fair_chance ch0 /\ fair_chance ch1 /\ (forall m a i, c_py ch0 m a i <> c_py ch1 m a i) /\ (forall y md, In y soil0 -> y_lat y = Some md -> ~ sampled md) /\
  forall solve nu cs mi, solver_ok solve ->
  same_answer (3 * length (nodes_of mesh1)) (soil_analysis rnd0 ch0 sort0 solve EulerBernoulli true 210 nu all_on ex_l 0 (-1) soil0 [-1] 2 cs mi)
    (soil_analysis rnd0 ch1 sort0 solve EulerBernoulli true 210 nu all_on ex_l 0 (-1) soil0 [-1] 2 cs mi).
Proof.
  assert (NS : forall y md, In y soil0 -> y_lat y = Some md -> ~ sampled md) by (intros y md [<-|[<-|[]]] E X; cbn [y_lat] in E; injection E as <-; exact X).
  split; [exact chance_exists|]. split; [exact ch1_fair|]. split; [intros m a i; cbn; lra|]. split; [exact NS|]. intros solve nu cs mi SV.
  apply (C126_analyses rnd0 ch0 ch1 sort0 all_on ex_l 0 (-1) soil0 [-1] 2 ex_p 2 (-8) mesh1 solve); auto; [exact storage_exists|exact chance_exists|exact ch1_fair|exact sort_exists|exact (site_exists all_on)].
Qed.

(** A place 1 m below the ground line, a storage with the precision of float32 and two springs there *)
Example C126_matlock_example : storage rnd_p /\ precise rnd_p /\ exists u u' c c' d, (forall i, 0 <= u i < 1)%R /\ (forall i, 0 <= u' i < 1)%R /\
  store_curve rnd_p (py_spring_fct (Modified_Matlock_clay (PList [20; 60]%R) (PNum 0.02) ApiSandModel.Cyclic 0.5 true (MNum 1) (MNum 1)) u (mkPlace 10 1 4 1 2 10 false) 0 15) = Ok (Some [c]) /\
  store_curve rnd_p (py_spring_fct (Modified_Matlock_clay (PList [20; 60]%R) (PNum 0.02) ApiSandModel.Cyclic 0.5 true (MNum 1) (MNum 1)) u' (mkPlace 10 1 4 1 2 10 false) 0 15) = Ok (Some [c']) /\ ~ resistance c d == resistance c' d.
Proof.
  destruct precise_exists as [ST PR]. split; [exact ST|]. split; [exact PR|]. apply C126_modified_matlock_refuted; auto.
  - constructor; cbn; lra.
  - cbn. unfold pos. lra.
  - cbn. lra.
  - cbn. lra.
Qed.
