(** C125: the model of a pile in soil depends on the soil at each elevation, not on how the profile is divided into
    layers or on the order in which they are listed. *)
From Coq Require Import List Bool Arith ZArith QArith Qabs Reals Qreals Permutation Lia Lqa Lra.
From Verif Require Import Base PileModel PileSpec MeshModel MeshSpec PisaModel StressModel StressSpec StressProps BCModel BeamModel SolveModel SpringModel WinklerModel CreateModel CreateProofs CreateProps WholeModel WholeSpec SessionModel
  AxialModel LateralModel CapacityModel CapacityProps FullModel FullSpec SiteProofs FullProps LiveModel SplitSpec SplitProofs LayerProofs.
Import ListNotations.
Local Open Scope Q_scope.

(** Two built models with which the user sees the same *)
Definition same_built (B B' : built) : Prop :=
  b_pile B = b_pile B' /\ nodes_of (b_mesh B) = nodes_of (b_mesh B') /\ elements_of (b_mesh B) = elements_of (b_mesh B') /\ b_made B = b_made B'.

Lemma same_built_solve : forall B B', same_built B B' -> forall solve ty circ E nu o l mi, solve_built solve ty circ E nu o B l mi = solve_built solve ty circ E nu o B' l mi.
Proof.
  intros B B' (E1 & E2 & E3 & E4) solve ty circ E nu o l mi. unfold solve_built, stiffness_model. rewrite E1, E2, E3, E4. reflexivity.
Qed.

Section Same.
Variables (rnd : R -> Q) (ch ch' : chance) (sort : list (Q * section) -> list (Q * section)) (o : options) (sections : list section) (gr wt : Q) (ys ys' : list soil_layer) (x x' : list Q) (c : Q).
Variables (B B' : built).
Hypothesis C : construct rnd ch sort o sections gr wt ys x c = Ok (Some B).
Hypothesis C' : construct rnd ch' sort o sections gr wt ys' x' c = Ok (Some B').
Hypothesis SB : same_built B B'.
Lemma same_analysis : forall solve ty circ E nu cs mi,
  soil_analysis rnd ch sort solve ty circ E nu o sections gr wt ys x c cs mi = soil_analysis rnd ch' sort solve ty circ E nu o sections gr wt ys' x' c cs mi.
Proof using All. intros. unfold soil_analysis. rewrite C, C'. cbn [bind]. apply same_built_solve. exact SB. Qed.
Lemma same_live : forall solve ty circ E nu prog,
  live rnd ch sort solve ty circ E nu o sections gr wt ys x c prog = live rnd ch' sort solve ty circ E nu o sections gr wt ys' x' c prog.
Proof using All.
  intros. unfold live. rewrite C, C'. cbn [bind]. destruct SB as (E1 & E2 & E3 & E4). unfold live_frame, live_springs. rewrite E1, E2, E3, E4. reflexivity.
Qed.
End Same.

(** ** The same soil gives the same springs *)
Theorem C125_same_springs : forall rnd ch ch' sort o sections gr bot wt ys ys' x x' c p b B B',
  placed sections gr bot ys x c p b -> placed sections gr bot ys' x' c p b -> same_requests p b ys x ys' x' -> same_soil ys ys' -> same_luck ys ys' ch ch' ->
  construct rnd ch sort o sections gr wt ys x c = Ok (Some B) -> construct rnd ch' sort o sections gr wt ys' x' c = Ok (Some B') ->
  b_pile B = b_pile B' /\ nodes_of (b_mesh B) = nodes_of (b_mesh B') /\ elements_of (b_mesh B) = elements_of (b_mesh B') /\ b_made B = b_made B'.
Proof. intros rnd ch ch' sort o sections gr bot wt ys ys' x x' c p b B B' PL PL' SR SS LU C C'. exact (same_model rnd ch ch' sort o sections gr bot wt ys ys' x x' c p b PL PL' SR SS LU B B' C C'). Qed.
Print Assumptions C125_same_springs.

(** Layers may be divided further: what was constructed is constructed. *)
Theorem C125_division_accepted : forall rnd ch ch' sort o sections gr bot wt ys ys' x x' c p b B,
  placed sections gr bot ys x c p b -> placed sections gr bot ys' x' c p b -> same_requests p b ys x ys' x' -> same_soil ys ys' -> same_luck ys ys' ch ch' -> finer ys' ys ->
  construct rnd ch sort o sections gr wt ys x c = Ok (Some B) -> exists B', construct rnd ch' sort o sections gr wt ys' x' c = Ok (Some B').
Proof. intros rnd ch ch' sort o sections gr bot wt ys ys' x x' c p b B PL PL' SR SS LU FN C. exact (finer_model rnd ch ch' sort o sections gr bot wt ys ys' x x' c p b PL PL' SR SS LU FN B C). Qed.
Print Assumptions C125_division_accepted.

(** Every analysis, and every program of setters, tables, analyses and resistances, gives the same. *)
Theorem C125_same_answers : forall rnd ch ch' sort o sections gr bot wt ys ys' x x' c p b B,
  placed sections gr bot ys x c p b -> placed sections gr bot ys' x' c p b -> same_requests p b ys x ys' x' -> same_soil ys ys' -> same_luck ys ys' ch ch' -> finer ys' ys ->
  construct rnd ch sort o sections gr wt ys x c = Ok (Some B) -> forall solve ty circ E nu,
  (forall cs mi, soil_analysis rnd ch sort solve ty circ E nu o sections gr wt ys x c cs mi = soil_analysis rnd ch' sort solve ty circ E nu o sections gr wt ys' x' c cs mi) /\
  (forall prog, live rnd ch sort solve ty circ E nu o sections gr wt ys x c prog = live rnd ch' sort solve ty circ E nu o sections gr wt ys' x' c prog).
Proof.
  intros rnd ch ch' sort o sections gr bot wt ys ys' x x' c p b B PL PL' SR SS LU FN C solve ty circ E nu.
  destruct (finer_model rnd ch ch' sort o sections gr bot wt ys ys' x x' c p b PL PL' SR SS LU FN B C) as (B' & C').
  pose proof (same_model rnd ch ch' sort o sections gr bot wt ys ys' x x' c p b PL PL' SR SS LU B B' C C') as SB.
  split; intros; [eapply same_analysis|eapply same_live]; eauto.
Qed.
Print Assumptions C125_same_answers.

(** ** A layer cut in two *)
(** The upper part ends with the values at the cut and the lower part starts with them. *)
Theorem C125_cut : forall rnd ch ch' sort o sections gr bot wt l1 l2 y z x c p b B,
  placed sections gr bot (l1 ++ y :: l2) (with_cut b z x) c p b -> l_bottom (y_layer y) < z -> z < l_top (y_layer y) ->
  same_luck (l1 ++ y :: l2) (l1 ++ upper_part y z :: lower_part y z :: l2) ch ch' ->
  construct rnd ch sort o sections gr wt (l1 ++ y :: l2) (with_cut b z x) c = Ok (Some B) ->
  (exists B', construct rnd ch' sort o sections gr wt (l1 ++ upper_part y z :: lower_part y z :: l2) x c = Ok (Some B') /\
    nodes_of (b_mesh B) = nodes_of (b_mesh B') /\ elements_of (b_mesh B) = elements_of (b_mesh B') /\ b_made B = b_made B') /\
  forall solve ty circ E nu prog, live rnd ch sort solve ty circ E nu o sections gr wt (l1 ++ y :: l2) (with_cut b z x) c prog =
    live rnd ch' sort solve ty circ E nu o sections gr wt (l1 ++ upper_part y z :: lower_part y z :: l2) x c prog.
Proof.
  intros rnd ch ch' sort o sections gr bot wt l1 l2 y z x c p b B PL Z1 Z2 LU C.
  pose proof (cut_placed _ _ _ _ _ _ _ _ _ _ _ PL Z1 Z2) as PL'. pose proof (cut_requests l1 l2 y z x p b Z1 Z2) as SR. pose proof (cut_soil _ _ _ _ _ _ _ _ _ _ _ PL Z1 Z2) as SS. pose proof (cut_finer l1 l2 y z Z1 Z2) as FN.
  destruct (finer_model rnd ch ch' sort o sections gr bot wt _ _ _ _ c p b PL PL' SR SS LU FN B C) as (B' & C').
  pose proof (same_model rnd ch ch' sort o sections gr bot wt _ _ _ _ c p b PL PL' SR SS LU B B' C C') as SB. split.
  - exists B'. split; [exact C'|]. apply SB.
  - intros. eapply same_live; eauto.
Qed.
Print Assumptions C125_cut.

(** ** The order of the layers *)
Theorem C125_order : forall rnd ch sort o sections gr bot wt ys ys' x c p b B,
  placed sections gr bot ys x c p b -> Permutation ys ys' -> steady ch -> construct rnd ch sort o sections gr wt ys x c = Ok (Some B) ->
  (exists B', construct rnd ch sort o sections gr wt ys' x c = Ok (Some B') /\
    nodes_of (b_mesh B) = nodes_of (b_mesh B') /\ elements_of (b_mesh B) = elements_of (b_mesh B') /\ b_made B = b_made B') /\
  forall solve ty circ E nu prog, live rnd ch sort solve ty circ E nu o sections gr wt ys x c prog = live rnd ch sort solve ty circ E nu o sections gr wt ys' x c prog.
Proof.
  intros rnd ch sort o sections gr bot wt ys ys' x c p b B PL PE ST C.
  pose proof (order_placed _ _ _ _ _ _ _ _ _ PL PE) as PL'. pose proof (order_requests ys ys' x p b PE) as SR. pose proof (order_soil _ _ _ _ _ _ _ _ _ PL PE) as SS. pose proof (order_luck ch _ _ _ _ _ _ _ _ _ PL PE ST) as LU. pose proof (order_finer ys ys' PE) as FN.
  destruct (finer_model rnd ch ch sort o sections gr bot wt _ _ _ _ c p b PL PL' SR SS LU FN B C) as (B' & C').
  pose proof (same_model rnd ch ch sort o sections gr bot wt _ _ _ _ c p b PL PL' SR SS LU B B' C C') as SB. split.
  - exists B'. split; [exact C'|]. apply SB.
  - intros. eapply same_live; eauto.
Qed.
Print Assumptions C125_order.

(** ** Examples *)
Lemma placed_exists : placed ex_l 0 (-20) soil0 [-1] 2 ex_p (-8).
Proof.
  destruct (site_exists all_on) as [[S1 S2 S3 S4 S5 S6 S7 S8 S9] FI (d & PD & ES & SB) TI WE WA OU SL]. constructor.
  - intros s [<-|[<-|[]]]; reflexivity.
  - exact S2.
  - exact S4.
  - discriminate.
  - exists ex_d. split; [apply perm_swap|]. split; [cbn; repeat split; reflexivity|reflexivity].
  - discriminate.
  - exact TI.
  - intros z [<-|[]]. discriminate.
  - exact S7.
Qed.
Lemma luck_exists : forall ys ys', same_luck ys ys' ch0 ch0.
Proof. intros ys ys' y y' a a' _ _ _ _ _ _ _. split; intros; split; reflexivity. Qed.
Lemma steady_exists : steady ch0.
Proof. intros a a' _. split; intros; split; reflexivity. Qed.
Definition upper_layer : soil_layer := mkSL (mkLayer 0 (-4) 18) (Some upper0) None.
Definition lower_layer : soil_layer := mkSL (mkLayer (-4) (-20) 19) (Some lower0) (Some (Clay clay_w)).

(** The clay from 0 to -4 m with an undrained strength of 20 to 60 kPa, cut at -1 m: 20 to 30 kPa and 30 to 60 kPa. *)
Example C125_cut_example : exists B B', construct rnd0 ch0 sort0 all_on ex_l 0 (-1) soil0 [-1] 2 = Ok (Some B) /\
  construct rnd0 ch0 sort0 all_on ex_l 0 (-1) [lower_layer; upper_part upper_layer (-1); lower_part upper_layer (-1)] [] 2 = Ok (Some B') /\ b_made B = b_made B' /\
  exists v, y_lat (upper_part upper_layer (-1)) = Some (API_clay (PList [20%R; v]) (PNum 0.02) ApiSandModel.Cyclic 0.5 true (MNum 1) (MFun (fun X => 2%R))) /\
            y_lat (lower_part upper_layer (-1)) = Some (API_clay (PList [v; 60%R]) (PNum 0.02) ApiSandModel.Cyclic 0.5 true (MNum 1) (MFun (fun X => 2%R))) /\ v = 30%R.
Proof.
  destruct (C104_constructed _ _ _ _ _ _ _ _ _ _ _ _ _ _ storage_exists chance_exists sort_exists (site_exists all_on)) as (st & MD & C & _). eexists.
  destruct (C125_cut rnd0 ch0 ch0 sort0 all_on ex_l 0 (-20) (-1) [lower_layer] [] upper_layer (-1) [] 2 ex_p (-8) _ placed_exists ltac:(reflexivity) ltac:(reflexivity) (luck_exists _ _) C) as [(B' & C' & _ & _ & M) _].
  exists B'. split; [exact C|]. split; [exact C'|]. split; [exact M|]. eexists. split; [reflexivity|]. split; [reflexivity|]. unfold linear, upper_layer. cbn [y_layer l_top l_bottom]. unfold Q2R. cbn. lra.
Qed.

(** The layer around the tip, cut below it and above it *)
Example C125_tip_example : exists B B' B'', construct rnd0 ch0 sort0 all_on ex_l 0 (-1) soil0 [-1] 2 = Ok (Some B) /\
  construct rnd0 ch0 sort0 all_on ex_l 0 (-1) [upper_part lower_layer (-10); lower_part lower_layer (-10); upper_layer] [-1] 2 = Ok (Some B') /\ b_made B = b_made B' /\
  construct rnd0 ch0 sort0 all_on ex_l 0 (-1) [upper_layer; lower_layer] [-1] 2 = Ok (Some B'') /\ b_made B = b_made B''.
Proof.
  destruct (C104_constructed _ _ _ _ _ _ _ _ _ _ _ _ _ _ storage_exists chance_exists sort_exists (site_exists all_on)) as (st & MD & C & _). eexists.
  destruct (C125_cut rnd0 ch0 ch0 sort0 all_on ex_l 0 (-20) (-1) [] [upper_layer] lower_layer (-10) [-1] 2 ex_p (-8) _ placed_exists ltac:(reflexivity) ltac:(reflexivity) (luck_exists _ _) C) as [(B' & C' & _ & _ & M) _].
  destruct (C125_order rnd0 ch0 sort0 all_on ex_l 0 (-20) (-1) soil0 [upper_layer; lower_layer] [-1] 2 ex_p (-8) _ placed_exists (perm_swap _ _ _) steady_exists C) as [(B'' & C'' & _ & _ & M'') _].
  exists B', B''. split; [exact C|]. split; [exact C'|]. split; [exact M|]. split; [exact C''|exact M''].
Qed.
