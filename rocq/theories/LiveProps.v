(** C108 - C110: a pile in soil as its user works with it: any program of setters, tables, analyses and
    resistances on a model constructed from a described site. *)
From Coq Require Import List Bool Arith ZArith QArith Qabs Qminmax Reals Qreals Lia Lqa Lra.
From Verif Require Import Base LinAlg BCModel BCSpec BCProofs PileModel PileSpec MeshModel MeshSpec StressModel StressSpec BeamModel SolveModel SolveSpec SolveProofs SoilProofs SpringModel SpringSpec SpringProofs WinklerModel WinklerProofs WinklerProps
  CreateModel WholeModel WholeSpec WholeProofs WholeProps BalanceSpec BalanceProofs BalanceProps ResultModel GetterModel GetterProofs SessionModel SessionSpec SessionProofs SessionWitness
  AxialModel AxialSpec CapacityModel CapacitySpec CapacityProofs StressProps CreateProps CapacityProps FullModel FullSpec FullProofs SiteProofs AnalysisProofs FullProps LiveModel LiveSpec LiveProofs ReportProofs LiveWitness.
Import ListNotations SpringModel.
Local Open Scope Q_scope.

(** ** C108: an analysis in a program *)
(** It is the analysis of the site (C107) with the boundary conditions set so far, wherever it stands, as long as
    no table of axial or lateral springs has been read before it (C92). *)
Theorem C108_analysis_in_program : forall rnd ch sort o sections gr wt ys x c p t b m solve ty circ E nu before after, storage rnd -> fair_chance ch -> (forall rows, ascending_of (sort rows) rows) ->
  sound_site o sections gr wt ys x c p t b m -> 0 < E -> -(3#4) <= nu -> (ty = Timoshenko -> circ = true) -> readings Lateral before = O -> readings Axial before = O ->
  exists answers, live rnd ch sort solve ty circ E nu o sections gr wt ys x c (before ++ Solve :: after) = Ok (Some answers) /\ length answers = length (before ++ Solve :: after) /\
  let A := soil_analysis rnd ch sort solve ty circ E nu o sections gr wt ys x c (setters before) 100 in
  ((exists out w, A = Ok (Some out) /\ nth_error answers (length before) = Some (Analysis (Ok (Some w))) /\ shows (nodes_of m) out w) \/
   (exists e, A = Err e /\ nth_error answers (length before) = Some (Analysis (Err e)))).
Proof.
  intros rnd ch sort o sections gr wt ys x c p t b m solve ty circ E nu before after ST FC SO SS PE PN HT R1 R2.
  destruct (live_unfold rnd ch sort o sections gr wt ys x c p t b m ST FC SO SS solve ty circ E nu PE PN HT) as (st & MD & ks & mc & CO & US & LV & AN & _). cbv zeta in *. set (B := mkBuilt p m st MD) in *.
  eexists. split; [apply LV|]. split; [apply session_length|]. rewrite answer_at, session_untouched by auto. cbn [st_bcs st_springs step fst].
  destruct (live_solve o sections gr wt ys x c p t b m SS solve st MD ks mc (setters before) (live_springs B)) as (tf & td & tr & GF & GD & GR & OK & ER). { unfold B. rewrite springs_back; exact US. }
  destruct (AN (setters before) 100%nat) as (tf' & td' & tr' & GF' & GD' & GR' & EA). assert (tf' = tf) by congruence. assert (td' = td) by congruence. assert (tr' = tr) by congruence. subst tf' td' tr'.
  rewrite EA. cbv zeta in OK, ER. fold B in OK, ER. unfold B in OK, ER. rewrite springs_back in OK, ER by exact US. cbn [b_made] in OK, ER. fold B in OK, ER.
  destruct (winkler_model _ _ _ _ _ 100) as [out|e]; cbn [bind].
  - left. destruct (OK out eq_refl) as (w & EW & SH). exists out, w. split; [reflexivity|]. split; [f_equal; f_equal; exact EW|exact SH].
  - right. exists e. split; [reflexivity|]. f_equal. f_equal. apply ER. reflexivity.
Qed.
Print Assumptions C108_analysis_in_program.

(** ** C109: programs do not fail *)
Lemma shaft_defined_live : forall o sections gr wt ys x c p t b m st MD ks mc s, sound_site o sections gr wt ys x c p t b m -> exists r, shaft_state (live_frame o (mkBuilt p m st MD) ks mc) s = Some r.
Proof.
  intros o sections gr wt ys x c p t b m st MD ks mc s SS. destruct (shaft_defined (live_frame o (mkBuilt p m st MD) ks mc) s eq_refl) as (c0 & t0 & E0); [|eauto].
  cbn [live_frame fr_nodes b_mesh]. destruct (meshed_nonempty _ _ _ _ _ _ _ _ (si_mesh _ _ _ _ _ _ _ _ _ _ _ SS)) as [NE NZ]. pose proof (nodes_elems_count m NE). lia.
Qed.

(** Lateral springs and shaft friction hold the pile (C107): every operation of every program gets its answer,
    also after tables of springs have been read, in any order and any number. *)
Theorem C109_no_program_fails : forall rnd ch sort o sections gr wt ys x c p t b m solve ty circ E nu prog, storage rnd -> fair_chance ch -> (forall rows, ascending_of (sort rows) rows) ->
  sound_site o sections gr wt ys x c p t b m -> (on_mt o = true -> on_py o = true) -> solver_ok solve -> 0 < E -> -(3#4) <= nu -> (ty = Timoshenko -> circ = true) ->
  ty = EulerBernoulli \/ on_mt o = false ->
  on_py o = true -> (exists e, In e (elements_of m) /\ resisting_layer gr ys e) -> on_tz o = true -> (exists e, In e (elements_of m) /\ sticking_layer gr ys e) ->
  exists answers, live rnd ch sort solve ty circ E nu o sections gr wt ys x c prog = Ok (Some answers) /\ Forall2 answered prog answers.
Proof.
  intros rnd ch sort o sections gr wt ys x c p t b m solve ty circ E nu prog ST FC SO SS PP SV PE PN HT C ON (e1 & IE1 & RL) OT (e2 & IE2 & SL).
  destruct (live_unfold rnd ch sort o sections gr wt ys x c p t b m ST FC SO SS solve ty circ E nu PE PN HT) as (st & MD & ks & mc & CO & US & LV & _ & SM). cbv zeta in *. set (B := mkBuilt p m st MD) in *.
  destruct (C104_springs_of_models _ _ _ _ _ _ _ _ _ _ _ _ _ _ _ ST FC SO SS CO) as [OW _]. cbn [b_made B] in OW.
  destruct (In_nth _ _ (0, 0) IE1) as (i1 & Hi1 & EI1). destruct (In_nth _ _ (0, 0) IE2) as (i2 & Hi2 & EI2).
  assert (RS : resists (FullModel.g_py (springs_of MD) i1 1)) by (eapply layer_resists; eauto; rewrite EI1; exact RL).
  assert (RZ : resists_axial (FullModel.g_tz (springs_of MD) i2 1)) by (eapply layer_sticks; eauto; [apply FC|rewrite EI2; exact SL]).
  assert (SOLVE : forall cs s, sturdy (length (elements_of m)) B s -> exists w, solve_state solve (live_frame o B ks mc) {| st_bcs := run cs []; st_springs := s |} = Ok (Some w)).
  { intros cs s (UG & R1 & R2). destruct (live_solve o sections gr wt ys x c p t b m SS solve st MD ks mc cs s UG) as (tf & td & tr & _ & _ & _ & OK & _). cbv zeta in OK. fold B in OK.
    set (g := springs_in B s) in *. set (M := stiffness_model o p m ks mc g) in *.
    cut (exists out, winkler_model solve M (dof_vector tf) (dof_vector td) (dof_flags tr) 100 = Ok out). { intros (out & EO). destruct (OK out EO) as (w & -> & _). eauto. }
    pose proof (usable_builds _ (usable_stiffness o p m ks mc g UG PP)) as BL. fold M in BL. pose proof (SM g UG PP C) as SM'. fold M in SM'.
    unfold winkler_model, winkler. destruct (BL zero Initial) as (K & EK). rewrite EK. cbn [bind].
    match goal with |- context [loop ?a1 ?a2 ?a3 ?a4 ?a5 ?a6 ?a7 ?a8 ?a9 ?b1 ?b2 ?b3 ?b4] => destruct (loop_total a1 a2 a3 a4 a5 a6 BL) with (fuel := a7) (iter := a8) (d := a9) (U := b1) (K := b2) (Rg := b3) (last := b4) as (r & ->) end; [|cbn [bind]; eauto].
    intros u K' EK'. destruct UG as (U1 & U2 & _).
    cut (stable (size M) K' (supports_of (dof_flags tr) (dof_vector td))). { intros SB Z. destruct (proj2 (solve_equations_succeeds solve (size M) K' (dof_vector tf) (dof_vector td) _ SV) SB) as [rr E0]. congruence. }
    apply (system_stable M (fun a => nth a (nodes_of m) 0) u Secant K' SM' EK').
    - destruct (resists_secant (spring_disp (w_n M) u 1 i1 1) (FullModel.g_py g i1 1) (proj1 (U1 i1 1%nat)) (R1 i1 1%nat Hi1 ltac:(lia) RS)) as (s1 & E1 & E2).
      exists (FullModel.g_py g), i1, 1%nat, s1. split; [unfold M, stiffness_model, soil_model; cbn [w_py]; rewrite ON; reflexivity|auto].
    - right; left. destruct (resists_axial_secant (spring_disp (w_n M) u 0 i2 1) (FullModel.g_tz g i2 1) (proj1 (U2 i2 1%nat)) (R2 i2 1%nat Hi2 ltac:(lia) RZ)) as (s1 & E1 & E2).
      exists (FullModel.g_tz g), i2, 1%nat, s1. split; [unfold M, stiffness_model, soil_model; cbn [w_tz]; rewrite OT; reflexivity|auto]. }
  eexists. split; [apply LV|].
  assert (G : forall l cs s, sturdy (length (elements_of m)) B s -> Forall2 answered l (fst (session solve (live_frame o B ks mc) l {| st_bcs := run cs []; st_springs := s |}))).
  { induction l as [|q l IH]; intros cs s HS; [constructor|]. cbn [session].
    pose proof (program_keeps o sections gr wt ys x c p t b m SS solve st MD ks mc [q] {| st_bcs := run cs []; st_springs := s |} HS) as [K1 K2]. fold B in K1, K2. cbn [session] in K1, K2.
    assert (A1 : answered q (fst (step solve (live_frame o B ks mc) q {| st_bcs := run cs []; st_springs := s |}))).
    { destruct q as [k|g k| | |]; cbn [step fst].
      - exact Logic.I.
      - unfold table_state. cbn [fr_soil live_frame]. destruct g, k; cbn; auto.
      - destruct (SOLVE cs s HS) as (w & ->). exact Logic.I.
      - destruct (shaft_defined_live o sections gr wt ys x c p t b m st MD ks mc {| st_bcs := run cs []; st_springs := s |} SS) as (r & Er). fold B in Er. rewrite Er. exact Logic.I.
      - exact Logic.I. }
    destruct (step solve (live_frame o B ks mc) q {| st_bcs := run cs []; st_springs := s |}) as [a s1]. cbn [fst snd st_springs st_bcs] in *.
    destruct s1 as [bs ss]. cbn [st_bcs st_springs] in *. rewrite K2. replace (run (setters [q]) (run cs [])) with (run (cs ++ setters [q]) []) by (unfold run; apply fold_left_app). specialize (IH (cs ++ setters [q]) ss K1).
    destruct (session solve (live_frame o B ks mc) l {| st_bcs := run (cs ++ setters [q]) []; st_springs := ss |}) as [r s2]. constructor; assumption. }
  apply (G prog [] _ (start_sturdy p m st MD US)).
Qed.
Print Assumptions C109_no_program_fails.

(** An analysis of a pile that its supports hold succeeds, whatever was read before it; its tables hold numbers
    unless it stopped after 100 passes. *)
Theorem C109_supported : forall rnd ch sort o sections gr wt ys x c p t b m solve ty circ E nu before after, storage rnd -> fair_chance ch -> (forall rows, ascending_of (sort rows) rows) ->
  sound_site o sections gr wt ys x c p t b m -> (on_mt o = true -> on_py o = true) -> solver_ok solve -> 0 < E -> -(3#4) <= nu -> (ty = Timoshenko -> circ = true) ->
  ty = EulerBernoulli \/ on_mt o = false -> holds_pile (nodes_of m) (run (setters before) []) ->
  exists answers w, live rnd ch sort solve ty circ E nu o sections gr wt ys x c (before ++ Solve :: after) = Ok (Some answers) /\
    nth_error answers (length before) = Some (Analysis (Ok (Some w))) /\ (res_disp w = None -> res_iter w = 100%nat).
Proof.
  intros rnd ch sort o sections gr wt ys x c p t b m solve ty circ E nu before after ST FC SO SS PP SV PE PN HT C HP.
  destruct (live_unfold rnd ch sort o sections gr wt ys x c p t b m ST FC SO SS solve ty circ E nu PE PN HT) as (st & MD & ks & mc & CO & US & LV & _ & SM). cbv zeta in *. set (B := mkBuilt p m st MD) in *.
  destruct (program_keeps o sections gr wt ys x c p t b m SS solve st MD ks mc before {| st_bcs := []; st_springs := live_springs B |} (start_sturdy p m st MD US)) as [K1 K2]. fold B in K1, K2.
  set (s' := snd (session solve (live_frame o B ks mc) before {| st_bcs := []; st_springs := live_springs B |})) in *. destruct K1 as (UG & _).
  destruct (live_solve o sections gr wt ys x c p t b m SS solve st MD ks mc (setters before) (st_springs s') UG) as (tf & td & tr & GF & GD & GR & OK & _). cbv zeta in OK. fold B in OK.
  set (g := springs_in B (st_springs s')) in *. set (M := stiffness_model o p m ks mc g) in *.
  assert (LN : length (nodes_of m) = S (w_n M)).
  { pose proof (si_mesh _ _ _ _ _ _ _ _ _ _ _ SS) as MS. destruct (meshed_nonempty _ _ _ _ _ _ _ _ MS) as [NE _]. unfold M, stiffness_model, soil_model. cbn [w_n]. exact (nodes_elems_count m NE). }
  pose proof (proj2 (held_iff (nodes_of m) (run (setters before) []) (w_n M) td tr LN GD GR) HP) as HL.
  pose proof (usable_builds _ (usable_stiffness o p m ks mc g UG PP)) as BL. fold M in BL. pose proof (SM g UG PP C) as SM'. fold M in SM'.
  assert (W : exists out, winkler_model solve M (dof_vector tf) (dof_vector td) (dof_flags tr) 100 = Ok out /\ (o_d out = None -> o_iter out = 100%nat)).
  { unfold winkler_model, winkler. destruct (BL zero Initial) as (K & EK). rewrite EK. cbn [bind].
    match goal with |- context [loop ?a1 ?a2 ?a3 ?a4 ?a5 ?a6 ?a7 ?a8 ?a9 ?b1 ?b2 ?b3 ?b4] => destruct (loop_numbers a1 a2 a3 a4 a5 a6 BL) with (fuel := a7) (iter := a8) (d := a9) (U := b1) (K := b2) (Rg := b3) (last := b4) as (r & -> & NU) end.
    - intros u k K' F' U' EK'. apply solve_equations_succeeds; [exact SV|]. exact (system_held M (fun a => nth a (nodes_of m) 0) u k K' SM' EK' _ HL).
    - eauto.
    - discriminate.
    - cbn [bind]. eauto. }
  destruct W as (out & EO & NU). destruct (OK out EO) as (w & EW & (S1 & _ & S3)).
  eexists _, w. split; [apply LV|]. split.
  - rewrite answer_at. fold s'. cbn [step fst]. cbn [st_bcs] in K2. f_equal. f_equal. rewrite <- EW. f_equal. destruct s' as [bs ss]. cbn [st_bcs st_springs] in *. congruence.
  - intros D. rewrite S3. apply NU. rewrite S1 in D. destruct (o_d out); [discriminate|reflexivity].
Qed.
Print Assumptions C109_supported.

(** ** C110: resistances asked for in a program *)
(** Shaft resistance: up to the error of storage it is the friction of the soil models integrated along the shaft
    with the trapezoidal rule, plus the part [steps] that the lengths of influence add where the heights of two
    elements and their frictions differ (C101).  Only a table of axial springs read before it may disturb it. *)
Theorem C110_shaft_resistance : forall eps rnd ch sort o sections gr wt ys x c p t b m solve ty circ E nu before after, storage rnd -> accurate eps rnd -> fair_chance ch -> (forall rows, ascending_of (sort rows) rows) ->
  sound_site o sections gr wt ys x c p t b m -> 0 < E -> -(3#4) <= nu -> (ty = Timoshenko -> circ = true) -> readings Axial before = O ->
  exists answers down up, live rnd ch sort solve ty circ E nu o sections gr wt ys x c (before ++ Shaft :: after) = Ok (Some answers) /\ nth_error answers (length before) = Some (Number2 (Some (down, up))) /\
  exists cc ct, (forall i j, (i < length (elements_of m))%nat -> (j < 2)%nat -> end_friction o sections gr wt ys m true i j (cc i j) /\ end_friction o sections gr wt ys m false i j (ct i j)) /\
    close eps (Q2R down) (trapezoids cc (elements_of m) + steps cc (elements_of m)) /\ close eps (Q2R up) (trapezoids ct (elements_of m) + steps ct (elements_of m)).
Proof.
  intros eps rnd ch sort o sections gr wt ys x c p t b m solve ty circ E nu before after ST AC FC SO SS PE PN HT RA.
  destruct (live_unfold rnd ch sort o sections gr wt ys x c p t b m ST FC SO SS solve ty circ E nu PE PN HT) as (st & MD & ks & mc & CO & US & LV & _). cbv zeta in *. set (B := mkBuilt p m st MD) in *.
  destruct (C104_springs_of_models _ _ _ _ _ _ _ _ _ _ _ _ _ _ _ ST FC SO SS CO) as [OW _]. cbn [b_made B] in OW.
  set (fr := live_frame o B ks mc) in *. set (s0 := {| st_bcs := []; st_springs := live_springs B |}) in *.
  assert (TZ : GetterModel.g_tz (st_springs (snd (session solve fr before s0))) = array_of (FullModel.g_tz (springs_of MD))).
  { rewrite session_state by reflexivity. cbn [st_springs]. rewrite calls_keep_axial; [reflexivity|]. rewrite <- (proj2 (readings_touched before)). exact RA. }
  destruct (shaft_defined_live o sections gr wt ys x c p t b m st MD ks mc (snd (session solve fr before s0)) SS) as ([dn up] & ER). fold B in ER. fold fr in ER.
  eexists _, dn, up. split; [apply LV|]. split; [rewrite answer_at; cbn [step fst]; fold fr; fold s0; rewrite ER; reflexivity|].
  unfold shaft_state in ER. cbn [fr_soil fr live_frame fr_nodes b_mesh B] in ER. destruct (StressModel.influence (nodes_of m)) as [infl|] eqn:EI; [|discriminate].
  assert (FN : fr_n fr = length (elements_of m)). { unfold fr_n, fr. cbn [live_frame fr_nodes b_mesh B]. pose proof (nodes_elems_count m (proj1 (meshed_nonempty _ _ _ _ _ _ _ _ (si_mesh _ _ _ _ _ _ _ _ _ _ _ SS)))). lia. }
  assert (EX : forall f, extreme_friction f (fr_n fr) (GetterModel.g_tz (st_springs (snd (session solve fr before s0)))) = map (fun e => (f (map snd (FullModel.g_tz (springs_of MD) e 0%nat)), f (map snd (FullModel.g_tz (springs_of MD) e 1%nat)))) (seq 0 (length (elements_of m)))).
  { intros f. unfold extreme_friction. rewrite FN, TZ. apply map_ext. intros e. rewrite !array_back by apply US. reflexivity. }
  fold fr in ER. fold s0 in ER. rewrite !EX in ER. destruct (shaft_close rnd ch o sections gr wt ys x c p t b m (springs_of MD) ST FC SS eps infl AC OW EI) as (cc & ct & H1 & H2 & H3). cbv zeta in H2, H3.
  exists cc, ct. split; [exact H1|]. assert (dn = _ /\ up = _) as [-> ->] by (injection ER as <- <-; split; reflexivity). auto.
Qed.
Print Assumptions C110_shaft_resistance.

(** Tip resistance: up to the error of storage the end bearing of the soil model under the tip, whatever was done
    before. *)
Theorem C110_tip_resistance : forall eps rnd ch sort o sections gr wt ys x c p t b m solve ty circ E nu before after, storage rnd -> accurate eps rnd -> fair_chance ch -> (forall rows, ascending_of (sort rows) rows) ->
  sound_site o sections gr wt ys x c p t b m -> 0 < E -> -(3#4) <= nu -> (ty = Timoshenko -> circ = true) ->
  exists answers q, live rnd ch sort solve ty circ E nu o sections gr wt ys x c (before ++ Tip :: after) = Ok (Some answers) /\ nth_error answers (length before) = Some (Number (Some q)) /\
  exists v, tip_bearing_of o p wt b ys m v /\ close eps (Q2R q) v.
Proof.
  intros eps rnd ch sort o sections gr wt ys x c p t b m solve ty circ E nu before after ST AC FC SO SS PE PN HT.
  destruct (live_unfold rnd ch sort o sections gr wt ys x c p t b m ST FC SO SS solve ty circ E nu PE PN HT) as (st & MD & ks & mc & CO & US & LV & _). cbv zeta in *. set (B := mkBuilt p m st MD) in *.
  destruct (C104_springs_of_models _ _ _ _ _ _ _ _ _ _ _ _ _ _ _ ST FC SO SS CO) as [_ (s & LS & OB)]. cbn [b_made B] in OB.
  destruct (bearing_at rnd ch o sections gr wt ys x c p t b m (springs_of MD) ST FC SS s LS OB) as (v & TB & V0 & QM).
  eexists _, _. split; [apply LV|]. split; [rewrite answer_at; cbn [step fst]; reflexivity|]. exists v. split; [exact TB|].
  cbn [live_frame fr_qz fr_soil b_made B]. rewrite Q2R_abs, (Qeq_eqR _ _ QM). apply accurate_close; auto.
Qed.
Print Assumptions C110_tip_resistance.

(** ** The site of C107, stored with 24 significant bits *)
(** A program that reads tables, supports the head and asks again and again *)
Definition before0 : list op := [Tip; Shaft; Set_ (SetSupport 2 (Some 1) (Some 1) (Some 1)); Set_ (SetPointload (-1) (Some 30) None (Some (-5))); Table Rotational Lumped].
Definition after0 : list op := [Table Lateral Lumped; Shaft; Solve; Table Axial Distributed; Solve; Shaft; Table Rotational Distributed; Tip; Solve].

Lemma before0_holds : holds_pile (nodes_of mesh1) (run (setters before0) []).
Proof.
  assert (SN : forall a, In a [AX; AY; AZ] -> supported (nodes_of mesh1) (run (setters before0) []) 0 a).
  { intros a Ha. exists (mkBC Fixation 2 (Some 1) (Some 1) (Some 1)), 1. split; [left; reflexivity|]. left.
    split; [reflexivity|]. split; [apply first_close_iff; vm_compute; reflexivity|]. split; [|discriminate].
    destruct Ha as [<-|[<-|[<-|[]]]]; reflexivity. }
  split; [exists 0%nat; apply SN; cbn; auto|]. exists 0%nat. split; [apply SN; cbn; auto|]. left. exists 0%nat. apply SN. cbn; auto.
Qed.

(** C108 and C109 apply to it: the analysis after [before0] is the one of C107, and every operation is answered. *)
Example C108_example : storage rnd32 /\ readings Lateral before0 = O /\ readings Axial before0 = O /\ forall solve, solver_ok solve ->
  exists answers out w, live rnd32 ch0 sort0 solve EulerBernoulli true 210 (3#10) all_on ex_l 0 (-1) soil0 [-1] 2 (before0 ++ Solve :: after0) = Ok (Some answers) /\
    soil_analysis rnd32 ch0 sort0 solve EulerBernoulli true 210 (3#10) all_on ex_l 0 (-1) soil0 [-1] 2 (setters before0) 100 = Ok (Some out) /\
    nth_error answers 5 = Some (Analysis (Ok (Some w))) /\ shows (nodes_of mesh1) out w.
Proof.
  split; [exact storage32|]. split; [reflexivity|]. split; [reflexivity|]. intros solve SV.
  destruct C107_example as (_ & FC & SO & SS & RL & SL & _).
  destruct (C108_analysis_in_program rnd32 ch0 sort0 all_on ex_l 0 (-1) soil0 [-1] 2 ex_p 2 (-8) mesh1 solve EulerBernoulli true 210 (3#10) before0 after0 storage32 FC SO SS
    ltac:(reflexivity) ltac:(discriminate) ltac:(discriminate) eq_refl eq_refl) as (answers & EL & _ & H). cbv zeta in H.
  destruct (C107_soil_holds_pile rnd32 ch0 sort0 all_on ex_l 0 (-1) soil0 [-1] 2 ex_p 2 (-8) mesh1 solve EulerBernoulli true 210 (3#10) (setters before0) 100 storage32 FC SO SS) as (r & ER); auto; try reflexivity; try discriminate.
  destruct H as [(out & w & EA & EN & SH)|(e & EA & _)]; [|congruence]. exists answers, out, w. auto.
Qed.

Example C109_example : forall solve, solver_ok solve ->
  (exists answers, live rnd32 ch0 sort0 solve EulerBernoulli true 210 (3#10) all_on ex_l 0 (-1) soil0 [-1] 2 (before0 ++ Solve :: after0) = Ok (Some answers) /\ Forall2 answered (before0 ++ Solve :: after0) answers) /\
  holds_pile (nodes_of mesh1) (run (setters (before0 ++ Solve :: after0)) []).
Proof.
  intros solve SV. destruct C107_example as (_ & FC & SO & SS & RL & SL & _). split; [|exact before0_holds].
  eapply C109_no_program_fails; eauto using storage32; try reflexivity; try discriminate.
Qed.

(** C110: 9 Su over the section of 3 m2 at the tip; friction of the lower clay below -4 m only, and some there. *)
Example C110_example : accurate (powerRZ 2 (-23)) rnd32 /\ (forall v, tip_bearing_of all_on ex_p (-1) (-8) soil0 mesh1 v -> v = 1350%R) /\
  (forall v, end_friction all_on ex_l 0 (-1) soil0 mesh1 true 3 1 v -> v = 0%R) /\ (forall v, end_friction all_on ex_l 0 (-1) soil0 mesh1 true 5 1 v -> (0 < v)%R).
Proof.
  split; [exact accurate32|].
  assert (E : forall e, (e = last (elements_of mesh1) (0, 0) \/ e = nth 5 (elements_of mesh1) (0, 0)) -> l_bottom (mkLayer (-4) (-20) 19) <= snd e /\ fst e <= l_top (mkLayer (-4) (-20) 19)) by (intros e [->| ->]; vm_compute; split; discriminate).
  split; [|split].
  - intros v (y & s & OWN & LS & ->). destruct (E _ (or_introl eq_refl)) as [E1 E2]. pose proof (proj1 (OWN _) (conj (or_introl eq_refl) (conj E1 E2))) as EY. subst y. cbn in LS. injection LS as <-.
    cbn. unfold CapacitySpec.between. replace (Q2R 3) with 3%R by (unfold Q2R; cbn; lra). lra.
  - intros v [(_ & ->)|(_ & y & s & OWN & _ & ->)]; [reflexivity|].
    assert (EY : mkSL (mkLayer 0 (-4) 18) (Some upper0) None = y). { apply (proj1 (OWN _)). split; [right; left; reflexivity|]. vm_compute. split; discriminate. }
    subst y. reflexivity.
  - intros v [(F & _)|(_ & y & s & OWN & NB & ->)]; [exfalso; revert F; vm_compute; intros F; apply F; reflexivity|].
    destruct (E _ (or_intror eq_refl)) as [E1 E2]. pose proof (proj1 (OWN _) (conj (or_introl eq_refl) (conj E1 E2))) as EY. subst y. cbn [all_on on_tz y_ax].
    assert (CO : (0 < Q2R (s_outer s))%R) by (apply Q2R_pos; destruct NB as [[<-|[<-|[]]] _]; reflexivity).
    unfold line_capacity, sliding_perimeter. cbn [unit_friction soil_plug]. assert (F : friction_factor (Clay clay_w) = 1%R) by reflexivity. rewrite F.
    assert (P : plugged true (ca_plug clay_w) = false) by reflexivity. rewrite P.
    apply Rmult_lt_0_compat; [|lra]. apply Rmult_lt_0_compat; [|lra]. apply Rmult_lt_0_compat; [|lra]. apply clay_friction_pos. unfold CapacitySpec.between. cbn [clay_w ca_Su_top ca_Su_bottom]. lra.
Qed.
