(** Properties C84-C87: the results handed to the user. *)
From Coq Require Import List Bool Arith ZArith QArith Qabs Qminmax Lia Lqa.
From Verif Require Import Base LinAlg PileModel MeshModel BeamModel SolveModel SolveSpec SolveProofs SpringModel SpringSpec SpringProofs SoilProofs SpringProper SpringWitness
  WinklerModel WinklerSpec WinklerProofs WinklerWitness WinklerProps WholeProofs ResultModel ResultSpec ResultProofs.
Import ListNotations.
Local Open Scope Q_scope.

(** C84: full statement: the mobilisation table has one row per spring; row [2 e + j] gives the
    elevation of node [e + j], the resistance of the springs of element [e] at that node for the
    displacements of that node, and never exceeds the maximum in the same row.  True of every row but
    the last; the moment is that of the family at the mobilised lateral resistance with its sign. *)
Theorem C84_rows_partial : forall M z py mt u rows, length z = S (w_n M) -> springs_mob M z py mt (Some u) = Ok rows ->
  length rows = (2 * w_n M)%nat /\
  forall e j, (e < w_n M)%nat -> (j < 2)%nat -> ~ (e = (w_n M - 1)%nat /\ j = 1%nat) -> let r := nth (2 * e + j) rows no_row in
    r_z r = nth (e + j) z 0 /\ reports r (py e j) (mt e j) (u (3 * (e + j) + 1)%nat) (u (3 * (e + j) + 2)%nat).
Proof.
  intros M z py mt u rows LZ H. destruct (table_row M z py mt u rows LZ H) as [L R]. split; [exact L|].
  intros e j He Hj NL. specialize (R e j He Hj). cbv zeta in R.
  assert (E : spring_node (w_n M) e j = (e + j)%nat).
  { unfold spring_node. destruct (Nat.eqb_spec e (w_n M - 1)); destruct (Nat.eqb_spec j 1); cbn [andb]; auto. destruct NL; auto. }
  rewrite E in R. exact R.
Qed.
Print Assumptions C84_rows_partial.

(** The last row repeats the node above the tip; the tip is never reported. *)
Theorem C84_tip_row_refuted : forall M z py mt u rows, length z = S (w_n M) -> (1 <= w_n M)%nat -> springs_mob M z py mt (Some u) = Ok rows ->
  let n := w_n M in let r := nth (2 * (n - 1) + 1) rows no_row in
  r_z r = nth (n - 1) z 0 /\ reports r (py (n - 1)%nat 1%nat) (mt (n - 1)%nat 1%nat) (u (3 * (n - 1) + 1)%nat) (u (3 * (n - 1) + 2)%nat).
Proof.
  intros M z py mt u rows LZ L1 H n r. destruct (table_row M z py mt u rows LZ H) as [L R].
  specialize (R (w_n M - 1)%nat 1%nat ltac:(lia) ltac:(lia)). cbv zeta in R.
  assert (E : spring_node (w_n M) (w_n M - 1) 1 = (w_n M - 1)%nat) by (unfold spring_node; rewrite !Nat.eqb_refl; reflexivity).
  rewrite E in R. exact R.
Qed.
Print Assumptions C84_tip_row_refuted.

(** The table exists for every displacement. *)
Theorem C84_table_exists : forall M z py mt u,
  (forall e j, (e < w_n M)%nat -> (j < 2)%nat -> regular (py e j) \/ absent (py e j)) ->
  (forall e j, (e < w_n M)%nat -> (j < 2)%nat -> qsum (map (fun col => fst (point col 0)) (mt e j)) == 0 \/
     family (map snd (py e j)) (mt e j) /\ forall s q, family_at s (map snd (py e j)) (mt e j) q -> strict q /\ hardening q) ->
  exists rows, springs_mob M z py mt (Some u) = Ok rows.
Proof. exact table_total. Qed.
Print Assumptions C84_table_exists.

(** The tables a result gives of the springs: elevation, mobilised and largest resistance of the p-y springs, and of the m-t springs *)
Theorem C84_tables : forall w rows, res_mob w = Some rows ->
  exists p m, py_mobilization w = Some p /\ mt_mobilization w = Some m /\ length p = length rows /\ length m = length rows /\
  forall i r, nth_error rows i = Some r -> nth_error p i = Some (r_z r, r_p r, r_pmax r) /\ nth_error m i = Some (r_z r, r_m r, r_mmax r).
Proof.
  intros w rows E. unfold py_mobilization, mt_mobilization. rewrite E. cbn [option_map]. do 2 eexists. split; [reflexivity|]. split; [reflexivity|]. rewrite !map_length. split; [reflexivity|]. split; [reflexivity|].
  intros i r H. split; rewrite (map_nth_error _ _ _ H); reflexivity.
Qed.
Print Assumptions C84_tables.
Theorem C84_no_soil_no_tables : forall w, res_mob w = None -> py_mobilization w = None /\ mt_mobilization w = None.
Proof. intros w E. unfold py_mobilization, mt_mobilization. rewrite E. split; reflexivity. Qed.
Print Assumptions C84_no_soil_no_tables.

(** Where the pile moves in the negative direction, moments that come from lateral pressure are
    reported as zero whatever the rotation. *)
Theorem C84_negative_side_refuted : forall M z py mt u rows e j, length z = S (w_n M) -> springs_mob M z py mt (Some u) = Ok rows ->
  (e < w_n M)%nat -> (j < 2)%nat -> ~ (e = (w_n M - 1)%nat /\ j = 1%nat) -> let r := nth (2 * e + j) rows no_row in
  u (3 * (e + j) + 1)%nat < 0 -> (exists p, r_p r = Some p /\ 0 < p) ->
  (exists pp, map snd (py e j) = 0 :: pp /\ nondecreasing (0 :: pp)) ->
  (forall col, In col (mt e j) -> col <> [] /\ snd (point col 0) == 0) -> ordered ((0, 0) :: map (fun col => point col 0) (tl (mt e j))) ->
  exists m, r_m r = Some m /\ m == 0.
Proof.
  intros M z py mt u rows e j LZ H He Hj NL r UN HP PE HC OR.
  assert (E : spring_node (w_n M) e j = (e + j)%nat).
  { unfold spring_node. destruct (Nat.eqb_spec e (w_n M - 1)); destruct (Nat.eqb_spec j 1); cbn [andb]; auto. destruct NL; auto. }
  apply (negative_row M z py mt u rows e j LZ H He Hj); auto. rewrite E. exact UN.
Qed.
Print Assumptions C84_negative_side_refuted.

(** moments that grow with the lateral resistance, with moments of their own at zero resistance *)
Definition mt9 : list curve := [[(1#1000, 0); (1#1000, 0); (1#1000, 0)]; [(1#100, 10); (1#100, 50); (1#100, 100)]; [(1#10, 20); (1#10, 100); (1#10, 200)]].
Definition u9 : vec := of_list [0; 5#1000; 1#100; 0; -(55#1000); 1#100; 0; 1#100; 1#100].

Example C84_example : exists rows, springs_mob soil0 [0; -(1); -(2)] (fun _ _ => py0) (fun _ _ => mt9) (Some u9) = Ok rows /\
  regular py0 /\ family (map snd py0) mt9 /\ ~ qsum (map (fun col => fst (point col 0)) mt9) == 0 /\
  map (fun r => (r_z r, option_map Qred (r_p r), option_map Qred (r_m r))) rows =
  [(0, Some 50, Some 30); (-(1), Some 150, Some 10); (-(1), Some 150, Some 10); (-(1), Some 150, Some 10)].
Proof.
  eexists. split; [vm_compute; reflexivity|]. split; [exact py0_ok|]. split.
  - split; [cbn; lia|]. split; [cbn; repeat split; lra|]. split; [discriminate|].
    intros col [<-|[<-|[<-|[]]]]; split; try reflexivity; cbn; repeat split; lra.
  - split; [intro X; discriminate X|]. vm_compute. reflexivity.
Qed.

Example C84_example_negative : exists rows, springs_mob soil0 [0; -(1); -(2)] (fun _ _ => py0) (fun _ _ => mt0) (Some u0m) = Ok rows /\
  map (fun r => (option_map Qred (r_p r), option_map Qred (r_m r))) rows = repeat (Some 100, Some 0) 4 /\
  u0m 1%nat < 0 /\ ~ u0m 2%nat == 0.
Proof. eexists. split; [vm_compute; reflexivity|]. split; [vm_compute; reflexivity|]. split; [reflexivity|intro X; discriminate X]. Qed.

(** C85: full statement: numbers in the tables mean equilibrium, and an analysis that found no
    equilibrium is shown as failed by all tables and by the details.  The first part holds for solve,
    which allows 100 passes; in the second the displacements, forces and mobilised values are NaN, but
    the reaction table is empty like that of a pile without reactions, and details() gives a number
    under "converged @ iter no.". *)
Theorem C85_numbers_mean_equilibrium : forall solve M z a F U r w rows, solver_ok solve -> length z = S (w_n M) ->
  solve_model solve M z (Some a) F U r = Ok (Some w) -> res_disp w = Some rows ->
  exists v R Ks Rt, length rows = length z /\
    (forall i zi, nth_error z i = Some zi -> nth_error rows i = Some (zi, (v (3 * i)%nat, v (3 * i + 1)%nat, v (3 * i + 2)%nat))) /\
    build M v Secant = Ok Ks /\
    out_of_balance (size M) (supports_of r U) F Ks v < (1 # 100000000) * force2 (size M) (fun i => F i - Rt i) /\
    (forall i, (i < size M)%nat -> supports_of r U i = false -> Rt i == 0) /\
    (forall i, (i < size M)%nat -> supports_of r U i = true -> v i == U i) /\
    reactions_for (size M) (build M) F U (supports_of r U) v R /\ res_reac w = reaction_rows (disp_rows z R) /\
    (2 <= dt_iter (details_of w) <= 100)%nat.
Proof.
  intros solve M z a F U r w rows SO LZ H E. destruct (solve_inv _ _ _ _ _ _ _ _ H) as (o & W & ED & _ & ER & EI & _).
  rewrite E in ED. destruct (o_d o) as [v|] eqn:OD; [|discriminate]. cbn [option_map] in ED. injection ED as ->.
  destruct (C35_equilibrium_partial solve M F U r 100 o v SO ltac:(lia) W OD) as (Ks & Rt & e & t & B & _ & _ & RZ & EE & ET & LT).
  destruct (C35_reactions_partial solve M F U r 100 o v SO ltac:(lia) W OD) as ((R & EQ & RF) & IT).
  exists v, R, Ks, Rt. split; [apply disp_rows_length|]. split; [intros i zi Hi; apply disp_rows_nth; exact Hi|]. split; [exact B|].
  split; [rewrite <- EE, <- ET; exact LT|]. split; [exact RZ|].
  split; [exact (C36_prescribed_result solve M F U r 100 o v SO W OD)|]. split; [exact RF|].
  split; [rewrite ER, EQ; reflexivity|]. cbn [details_of dt_iter]. rewrite EI. exact IT.
Qed.
Print Assumptions C85_numbers_mean_equilibrium.

Theorem C85_failed_tables_partial : forall solve M z a F U0 r max_iter o, winkler_model solve M F U0 r max_iter = Ok o -> o_d o = None ->
  exists w, winkler_result solve M z (Some a) F U0 r max_iter = Ok (Some w) /\ res_disp w = None /\ res_forces w = None /\
    (exists rows, res_mob w = Some rows /\ forall x, In x rows -> r_p x = None /\ r_m x = None) /\
    (exists h g, res_hb w = Some (None, h) /\ res_mb w = Some (None, g)).
Proof.
  intros solve M z a F U0 r m o H E. destruct (failed_result solve M z a F U0 r m o H E) as (w & A & B & C & D & G & _). exists w. auto.
Qed.
Print Assumptions C85_failed_tables_partial.

(** Every pile-soil model that is stable at rest, left without load: the analysis fails, yet the
    reaction table is empty and the details report convergence at pass 100 (101 when numpy solves the
    system of NaN once more instead of refusing it). *)
Theorem C85_failure_not_shown_refuted : forall solve M z a F U0 r K, solver_ok solve ->
  veq (size M) F zero -> veq (size M) U0 zero -> build M zero Initial = Ok K -> stable (size M) K (supports_of r U0) ->
  exists w, solve_model solve M z (Some a) F U0 r = Ok (Some w) /\ res_disp w = None /\ res_reac w = [] /\ dt_iter (details_of w) = 100%nat.
Proof.
  intros solve M z a F U0 r K SO HF HU B ST.
  destruct (model_unloaded solve M F U0 r K SO HF HU B ST 100) as (o & A & C & _). destruct (C ltac:(lia)) as (C1 & _ & C3).
  destruct (failed_result solve M z a F U0 r 100 o A C1) as (w & W & D1 & _ & _ & _ & D2 & D3). exists w.
  split; [exact W|]. split; [exact D1|]. split; [exact D2|]. cbn [details_of dt_iter]. congruence.
Qed.
Print Assumptions C85_failure_not_shown_refuted.

(** the soil of [soil1]: lateral, axial and base springs, no moment springs *)
Definition arrays0 : soil_arrays := {| a_py := fun _ _ => py0; a_mt := fun _ _ => repeat (repeat (0, 0) 3) 3; a_hb := py0; a_mb := py0 |}.

Example C85_example : exists w rows, solve_model gauss_solver soil1 [0; -(1); -(2)] (Some arrays0) small_load zero free = Ok (Some w) /\ res_disp w = Some rows.
Proof.
  destruct C35_example as (o & v & A & B & _). cbn [solve_model winkler_result]. rewrite A. cbn [bind]. unfold result_of. rewrite B.
  destruct (C84_table_exists soil1 [0; -(1); -(2)] (a_py arrays0) (a_mt arrays0) v) as [rows ->].
  { intros e j _ _. left. exact py0_ok. }
  { intros e j _ _. left. reflexivity. }
  cbn [bind option_map base_report]. destruct py0_ok as (L & ST & HD & OR).
  destruct (base_secant (v (size soil1 - 2)%nat) py0 L ST HD OR) as (k & p & E1 & _). destruct (base_secant (v (size soil1 - 1)%nat) py0 L ST HD OR) as (k' & p' & E2 & _).
  unfold base_mobilised. cbn [a_hb a_mb arrays0]. rewrite E1, E2. cbn [bind]. eexists _, _. split; reflexivity.
Qed.

(** The three single-column tables take their column from the displacement table. *)
Theorem C85_columns : forall solve M z a F U r w rows, solver_ok solve -> length z = S (w_n M) ->
  solve_model solve M z (Some a) F U r = Ok (Some w) -> res_disp w = Some rows ->
  exists v s y t, settlement w = Some s /\ deflection w = Some y /\ rotation w = Some t /\
  (forall i, (i < size M)%nat -> supports_of r U i = true -> v i == U i) /\
  forall i zi, nth_error z i = Some zi ->
    nth_error rows i = Some (zi, (v (3 * i)%nat, v (3 * i + 1)%nat, v (3 * i + 2)%nat)) /\
    nth_error s i = Some (zi, v (3 * i)%nat) /\ nth_error y i = Some (zi, v (3 * i + 1)%nat) /\ nth_error t i = Some (zi, v (3 * i + 2)%nat).
Proof.
  intros solve M z a F U r w rows SO LZ H E. destruct (C85_numbers_mean_equilibrium solve M z a F U r w rows SO LZ H E) as (v & R & Ks & Rt & _ & N & _ & _ & _ & P & _).
  exists v, (map (fun x => (fst x, first3 x)) rows), (map (fun x => (fst x, second3 x)) rows), (map (fun x => (fst x, third3 x)) rows).
  unfold settlement, deflection, rotation, column. rewrite E. split; [reflexivity|]. split; [reflexivity|]. split; [reflexivity|]. split; [exact P|].
  intros i zi Hi. specialize (N i zi Hi). split; [exact N|]. split; [|split]; rewrite (map_nth_error _ _ _ N); reflexivity.
Qed.
Print Assumptions C85_columns.

(** C86: the extremes shown by details() are the largest and smallest entries of the tables, to half
    a hundredth for forces and half a thousandth for displacements. *)
Definition column_of (f : Q * triple -> Q) (t : option (list (Q * triple))) : list Q := match t with Some rows => map f rows | None => [] end.

Definition summarises (e : Q) (l : list Q) (x : option (Q * Q)) : Prop := exists hi lo, x = Some (hi, lo) /\ largest l e hi /\ smallest l e lo.

Lemma extremes_summarise : forall p f rows, rows <> [] -> summarises ((1 # 2) / inject_Z (Zpos p)) (map f rows) (extremes p f (Some rows)).
Proof.
  intros p f rows NE. assert (NM : map f rows <> []) by (destruct rows; [contradiction|discriminate]).
  exists (round_to p (qmax (map f rows))), (round_to p (qmin (map f rows))). split; [reflexivity|]. split; [apply round_largest; auto|apply round_smallest; auto].
Qed.

Theorem C86_extremes : forall solve M z soil F U r w, length z = S (w_n M) -> (1 <= w_n M)%nat ->
  solve_model solve M z soil F U r = Ok (Some w) -> res_disp w <> None ->
  let dt := details_of w in
  summarises (1 # 200) (column_of (fun x => fst (fst (snd x))) (res_forces w)) (dt_N dt) /\
  summarises (1 # 200) (column_of (fun x => snd (fst (snd x))) (res_forces w)) (dt_V dt) /\
  summarises (1 # 200) (column_of (fun x => snd (snd x)) (res_forces w)) (dt_M dt) /\
  summarises (1 # 2000) (column_of (fun x => fst (fst (snd x))) (res_disp w)) (dt_settlement dt) /\
  summarises (1 # 2000) (column_of (fun x => snd (fst (snd x))) (res_disp w)) (dt_deflection dt) /\
  summarises (1 # 2000) (column_of (fun x => snd (snd x)) (res_disp w)) (dt_rotation dt).
Proof.
  intros solve M z soil F U r w LZ L1 H ND dt.
  assert (G : exists d f, res_disp w = Some d /\ res_forces w = Some f /\ d <> [] /\ f <> []).
  { assert (NL : map (w_L M) (seq 0 (w_n M)) <> []) by (destruct (w_n M); [lia|discriminate]).
    assert (NQ : forall v, pile_internal_forces (S (w_n M)) (w_mech M) v <> []).
    { intros v X. apply (f_equal (@length _)) in X. unfold pile_internal_forces in X. rewrite map_length, combine_length, seq_length in X.
      unfold stacked in X. revert X. replace (S (w_n M) - 1)%nat with (S (w_n M - 1)) by lia. unfold node_rows. cbn [seq map].
      destruct (w_n M) as [|m]; [lia|]. cbn [seq map]. unfold repeat_inner. set (l := _ :: _ :: _). destruct (rev l) as [|y t] eqn:E;
        [apply (f_equal (@length _)) in E; rewrite rev_length in E; discriminate|]. unfold l. cbn [inner tl]. destruct (map _ (seq 2 m)); cbn; discriminate. }
    assert (ZN : forall v, disp_rows z v <> []) by (intros v X; apply (f_equal (@length _)) in X; rewrite disp_rows_length, LZ in X; discriminate).
    destruct soil as [a|].
    - destruct (solve_inv _ _ _ _ _ _ _ _ H) as (o & _ & ED & EF & _). destruct (o_d o) as [v|]; [|rewrite ED in ND; contradiction].
      cbn [option_map] in ED, EF. eexists _, _. split; [exact ED|]. split; [exact EF|]. split; [apply ZN|]. apply forces_nonempty; auto. lia.
    - cbn [solve_model beam_result] in H. unfold beam_result in H. destruct (beam solve (w_n M) (w_mech M) F U r) as [[[d R] q]|] eqn:B; [|discriminate].
      injection H as <-. cbn. eexists _, _. split; [reflexivity|]. split; [reflexivity|]. split; [apply ZN|]. apply forces_nonempty; auto; [lia|].
      unfold beam in B. destruct (solve_equations _ _ _ _ _ _) as [dq|]; [|discriminate]. cbn [option_map] in B. injection B as <- <- <-. apply NQ. }
  destruct G as (d & f & ED & EF & NED & NEF). unfold dt, details_of. cbn [dt_N dt_V dt_M dt_settlement dt_deflection dt_rotation]. rewrite ED, EF. cbn [column_of].
  pose proof (fun g => extremes_summarise 100 g f NEF) as X1. pose proof (fun g => extremes_summarise 1000 g d NED) as X2.
  split; [exact (X1 first3)|]. split; [exact (X1 second3)|]. split; [exact (X1 third3)|]. split; [exact (X2 first3)|]. split; [exact (X2 second3)|exact (X2 third3)].
Qed.
Print Assumptions C86_extremes.

Example C86_example : exists w, solve_model gauss_solver soil1 [0; -(1); -(2)] (Some arrays0) small_load zero free = Ok (Some w) /\ res_disp w <> None.
Proof. destruct C85_example as (w & rows & A & B). exists w. split; [exact A|congruence]. Qed.

(** C87: full statement: an analysis of a model either raises or returns a result.  True of solve.
    Calling winkler on a model without soil returns None. *)
Theorem C87_solve_returns : forall solve M z soil F U r x, solve_model solve M z soil F U r = Ok x ->
  exists w, x = Some w /\ (soil = None <-> res_mob w = None) /\ (soil = None -> res_hb w = None /\ res_mb w = None /\ dt_iter (details_of w) = 1%nat).
Proof.
  intros solve M z soil F U r x H. destruct soil as [a|].
  - cbn [solve_model winkler_result] in H. destruct (winkler_model solve M F U r 100) as [o|]; cbn [bind] in H; [|discriminate].
    destruct (result_of _ _ _ _ _ _ _) as [w|] eqn:R; cbn [bind] in H; [|discriminate]. exists w. split; [congruence|].
    unfold result_of in R. destruct (springs_mob _ _ _ _ _) as [rows|]; cbn [bind] in R; [|discriminate].
    destruct (base_report _ (a_hb a)) as [h|]; cbn [bind] in R; [|discriminate]. destruct (base_report _ (a_mb a)) as [g|]; cbn [bind] in R; [|discriminate].
    injection R as <-. cbn. split; [split; discriminate|discriminate].
  - cbn [solve_model] in H. unfold beam_result in H. destruct (beam solve (w_n M) (w_mech M) F U r) as [[[d R] q]|]; [|discriminate].
    apply (f_equal (fun y => match y with Ok a => a | Err _ => None end)) in H. subst x. eexists. split; [reflexivity|]. cbn. split; [split; reflexivity|]. auto.
Qed.
Print Assumptions C87_solve_returns.

Theorem C87_winkler_without_soil_refuted : forall solve M z F U r max_iter, winkler_result solve M z None F U r max_iter = Ok None.
Proof. reflexivity. Qed.
Print Assumptions C87_winkler_without_soil_refuted.

Example C87_example : exists w, solve_model gauss_solver soil1 [0; -(1); -(2)] None small_load zero (fun i => (6 <=? i)%nat) = Ok (Some w) /\ res_disp w <> None.
Proof.
  assert (A : match solve_model gauss_solver soil1 [0; -(1); -(2)] None small_load zero (fun i => (6 <=? i)%nat) with
    Ok (Some w) => match res_disp w with Some _ => true | None => false end | _ => false end = true) by (vm_compute; reflexivity).
  destruct (solve_model gauss_solver soil1 [0; -(1); -(2)] None small_load zero (fun i => (6 <=? i)%nat)) as [[w|]|]; try discriminate A.
  exists w. split; [reflexivity|]. destruct (res_disp w); [discriminate|discriminate A].
Qed.
