(** C141: the two directions of an analysis, along the pile and across it. *)
From Coq Require Import Reals List Bool Arith ZArith QArith Qabs Lia Lqa Setoid.
From Verif Require Import Base LinAlg BCModel PileModel MeshModel StressModel BeamModel BeamProofs SolveModel SolveSpec SolveProofs SpringModel SpringSpec SpringProofs SpringProper SpringWitness
  WinklerModel WinklerWitness BalanceProofs BareModel BareSpec BareProofs EquilSpec EquilProofs WholeModel NewtonSpec NewtonProofs NewtonProps FullModel ApartSpec ApartProofs ApartCalls ApartTables ApartWitness.
Import ListNotations.
Local Open Scope Q_scope.

(** Whatever springs are attached and whatever the displacements, the stiffness matrix keeps the two directions apart. *)
Theorem C141_stiffness : forall M u k K, elements_apart M -> SpringModel.build M u k = Ok K -> uncoupled K /\
  (forall M' u' K', alike_across M M' -> agree (SpringModel.size M) across u u' -> SpringModel.build M' u' k = Ok K' -> same_within across K K') /\
  (forall M' u' K', alike_along M M' -> agree (SpringModel.size M) along u u' -> SpringModel.build M' u' k = Ok K' -> same_within along K K').
Proof.
  intros M u k K EA H. split; [exact (build_uncoupled M u k K EA H)|]. split.
  - intros M' u' K' AL AG H'. exact (build_across M M' u u' k AL AG K K' H H').
  - intros M' u' K' AL AG H'. exact (build_along M M' u u' k AL AG K K' H H').
Qed.
Print Assumptions C141_stiffness.

(** Two analyses that differ along the pile only (loads, supports, prescribed displacements, springs, section areas): pass by
    pass they compute the same displacements across the pile, and where both settle after the same number of passes they
    report the same. *)
Theorem C141_across : forall solve solve' M M' F F' U U' r r' mi o o', solver_ok solve -> solver_ok solve' -> alike_across M M' ->
  let n := SpringModel.size M in agree n across F F' -> agree n across U U' -> held_alike n across r r' ->
  winkler_model solve M F U r mi = Ok o -> winkler_model solve' M' F' U' r' mi = Ok o' ->
  step_by_step n across (rev (o_hist o)) (rev (o_hist o')) /\
  (o_iter o = o_iter o' -> settled o -> settled o' -> exists d d' q q', o_d o = Some d /\ o_d o' = Some d' /\ o_Q o = Some q /\ o_Q o' = Some q' /\ agree n across d d' /\ agree n across q q').
Proof.
  intros solve solve' M M' F F' U U' r r' mi o o' SO SO' AL n HF HU HR H H'. unfold winkler_model in H, H'.
  assert (SZ : SpringModel.size M' = n) by (unfold n, SpringModel.size; destruct AL as (-> & _); reflexivity). rewrite SZ in H'.
  refine (winkler_together n across across_class solve solve' _ _ SO SO' (supports_alike n across r r' U U' HR HU) (SpringModel.build M) (SpringModel.build M') F F' U U' _ HF HU mi o o' H H').
  intros d d' k K K' AG E E'. split; [|split].
  - apply (build_uncoupled M d k K); [apply AL|exact E].
  - apply (build_uncoupled M' d' k K'); [apply AL|exact E'].
  - exact (build_across M M' d d' k AL AG K K' E E').
Qed.
Print Assumptions C141_across.

Theorem C141_along : forall solve solve' M M' F F' U U' r r' mi o o', solver_ok solve -> solver_ok solve' -> alike_along M M' ->
  let n := SpringModel.size M in agree n along F F' -> agree n along U U' -> held_alike n along r r' ->
  winkler_model solve M F U r mi = Ok o -> winkler_model solve' M' F' U' r' mi = Ok o' ->
  step_by_step n along (rev (o_hist o)) (rev (o_hist o')) /\
  (o_iter o = o_iter o' -> settled o -> settled o' -> exists d d' q q', o_d o = Some d /\ o_d o' = Some d' /\ o_Q o = Some q /\ o_Q o' = Some q' /\ agree n along d d' /\ agree n along q q').
Proof.
  intros solve solve' M M' F F' U U' r r' mi o o' SO SO' AL n HF HU HR H H'. unfold winkler_model in H, H'.
  assert (SZ : SpringModel.size M' = n) by (unfold n, SpringModel.size; destruct AL as (-> & _); reflexivity). rewrite SZ in H'.
  refine (winkler_together n along along_class solve solve' _ _ SO SO' (supports_alike n along r r' U U' HR HU) (SpringModel.build M) (SpringModel.build M') F F' U U' _ HF HU mi o o' H H').
  intros d d' k K K' AG E E'. split; [|split].
  - apply (build_uncoupled M d k K); [apply AL|exact E].
  - apply (build_uncoupled M' d' k K'); [apply AL|exact E'].
  - exact (build_along M M' d d' k AL AG K K' E E').
Qed.
Print Assumptions C141_along.

(** ** Whole programs *)
(** the same program up to what its setter calls ask along the pile, and up to the springs along the pile being used *)
Definition options_across (o o' : options) : Prop := on_py o = on_py o' /\ on_mt o = on_mt o' /\ on_hb o = on_hb o' /\ on_mb o = on_mb o'.

Lemma solve_parts : forall solve ty circ E nu o B l mi r, solve_built solve ty circ E nu o B l mi = Ok (Some r) -> exists tf td tr ks cs,
  global_forces (nodes_of (b_mesh B)) l = Ok tf /\ global_disp (nodes_of (b_mesh B)) l = Ok td /\ global_restrained (nodes_of (b_mesh B)) l = Ok tr /\
  elem_matrices ty circ E nu (b_pile B) (elements_of (b_mesh B)) = Ok (Some ks) /\
  (if on_mt o then moment_coefs ty circ E nu (b_pile B) (elements_of (b_mesh B)) else Ok (Some [])) = Ok (Some cs) /\
  winkler_model solve (stiffness_model o (b_pile B) (b_mesh B) ks cs (springs_of (b_made B))) (dof_vector tf) (dof_vector td) (dof_flags tr) mi = Ok r.
Proof.
  intros solve ty circ E nu o B l mi r H. unfold solve_built in H. cbv zeta in H.
  destruct (global_forces _ l) as [tf|] eqn:EF; cbn [bind] in H; [|discriminate H]. destruct (global_disp _ l) as [td|] eqn:ED; cbn [bind] in H; [|discriminate H].
  destruct (global_restrained _ l) as [tr|] eqn:ER; cbn [bind] in H; [|discriminate H]. destruct (elem_matrices _ _ _ _ _ _) as [ks|] eqn:EK; cbn [bind] in H; [|discriminate H].
  destruct (if on_mt o then _ else _) as [cs|] eqn:EC; cbn [bind] in H; [|discriminate H].
  destruct ks as [ks|]; [|discriminate H]. destruct cs as [cs|]; [|discriminate H]. destruct (nan_free _ _); [|discriminate H].
  destruct (winkler_model _ _ _ _ _ _) as [r0|] eqn:EW; cbn [bind] in H; [|discriminate H]. injection H as <-. exists tf, td, tr, ks, cs. repeat (split; [assumption || reflexivity|]). exact EW.
Qed.

Theorem C141_program : forall solve solve' ty circ E nu o o' B cs cs' mi r r', solver_ok solve -> solver_ok solve' -> options_across o o' -> Forall2 same_call_across cs cs' ->
  solve_built solve ty circ E nu o B (run cs []) mi = Ok (Some r) -> solve_built solve' ty circ E nu o' B (run cs' []) mi = Ok (Some r') ->
  let n := (3 * length (elements_of (b_mesh B)) + 3)%nat in
  step_by_step n across (rev (o_hist r)) (rev (o_hist r')) /\
  (o_iter r = o_iter r' -> settled r -> settled r' -> exists d d' q q', o_d r = Some d /\ o_d r' = Some d' /\ o_Q r = Some q /\ o_Q r' = Some q' /\ agree n across d d' /\ agree n across q q').
Proof.
  intros solve solve' ty circ E nu o o' B cs cs' mi r r' SO SO' (O1 & O2 & O3 & O4) HC H H' n.
  destruct (solve_parts _ _ _ _ _ _ _ _ _ _ H) as (tf & td & tr & ks & mc & A1 & A2 & A3 & A4 & A5 & A6). destruct (solve_parts _ _ _ _ _ _ _ _ _ _ H') as (tf' & td' & tr' & ks' & mc' & B1 & B2 & B3 & B4 & B5 & B6).
  rewrite A4 in B4. injection B4 as <-. rewrite <- O2, A5 in B5. injection B5 as <-.
  destruct across_mod as (M2 & M1 & M0). pose proof (run_alike _ _ _ cs cs' (across_alike cs cs' HC) [] [] (Forall2_nil _)) as RL.
  destruct (tables_alike across true true false M2 M1 M0 (nodes_of (b_mesh B)) _ _ n _ _ _ _ _ _ RL A1 B1 A2 B2 A3 B3) as (T1 & T2 & T3).
  pose proof (elem_matrices_uncoupled _ _ _ _ _ _ _ A4) as UK. set (MA := stiffness_model o (b_pile B) (b_mesh B) ks mc (springs_of (b_made B))) in *. set (MB := stiffness_model o' (b_pile B) (b_mesh B) ks mc (springs_of (b_made B))) in *.
  assert (AL : alike_across MA MB).
  { unfold alike_across, MA, MB, stiffness_model, soil_model. cbn [w_n w_L w_py w_mt w_mtc w_hb w_mb]. rewrite O1, O2, O3, O4. repeat (split; [reflexivity|]).
    split; [intros e _; apply UK|]. split; [intros e _; apply UK|]. intros e _ i j _ _. reflexivity. }
  exact (C141_across solve solve' MA MB (dof_vector tf) (dof_vector tf') (dof_vector td) (dof_vector td') (dof_flags tr) (dof_flags tr') mi r r' SO SO' AL T1 T2 T3 A6 B6).
Qed.
Print Assumptions C141_program.

(** A pile without soil: the tables across the pile do not change, and neither do those along it. *)
Theorem C141_tables : forall solve solve' ty circ E nu p m cs cs' t t', solver_ok solve -> solver_ok solve' ->
  beam_tables solve ty circ E nu p m (run cs []) = Ok (Some t) -> beam_tables solve' ty circ E nu p m (run cs' []) = Ok (Some t') -> S (length (elements_of m)) = length (nodes_of m) ->
  (Forall2 same_call_across cs cs' ->
    Forall2 (fun a b => fst a = fst b /\ snd (fst (snd a)) == snd (fst (snd b)) /\ snd (snd a) == snd (snd b)) (t_disp t) (t_disp t') /\
    Forall2 (fun a b => fst a = fst b /\ snd (fst (snd a)) == snd (fst (snd b)) /\ snd (snd a) == snd (snd b)) (t_forces t) (t_forces t')) /\
  (Forall2 same_call_along cs cs' ->
    Forall2 (fun a b => fst a = fst b /\ fst (fst (snd a)) == fst (fst (snd b))) (t_disp t) (t_disp t') /\
    Forall2 (fun a b => fst a = fst b /\ fst (fst (snd a)) == fst (fst (snd b))) (t_forces t) (t_forces t')).
Proof.
  intros solve solve' ty circ E nu p m cs cs' t t' SO SO' H H' LN. unfold beam_tables in H, H'. cbv zeta in H, H'.
  destruct (global_forces _ (run cs [])) as [tf|] eqn:EF; cbn [bind] in H; [|discriminate H]. destruct (global_disp _ (run cs [])) as [td|] eqn:ED; cbn [bind] in H; [|discriminate H].
  destruct (global_restrained _ (run cs [])) as [tr|] eqn:ER; cbn [bind] in H; [|discriminate H].
  destruct (global_forces _ (run cs' [])) as [tf'|] eqn:EF'; cbn [bind] in H'; [|discriminate H']. destruct (global_disp _ (run cs' [])) as [td'|] eqn:ED'; cbn [bind] in H'; [|discriminate H'].
  destruct (global_restrained _ (run cs' [])) as [tr'|] eqn:ER'; cbn [bind] in H'; [|discriminate H'].
  destruct (elem_matrices _ _ _ _ _ _) as [[ks|]|] eqn:EK; cbn [bind] in H, H'; [|discriminate H|discriminate H].
  destruct (beam solve _ _ _ _ _) as [[[d R] q]|] eqn:EB; [|discriminate H]. destruct (beam solve' _ _ _ _ _) as [[[d' R'] q']|] eqn:EB'; [|discriminate H'].
  injection H as <-. injection H' as <-. cbn [t_disp t_forces]. pose proof (elem_matrices_uncoupled _ _ _ _ _ _ _ EK) as UK.
  set (n := length (elements_of m)) in *. assert (SZ : (3 * n + 3 = 3 * length (nodes_of m))%nat) by lia.
  assert (WEAK : forall A (P P' : A -> A -> Prop) l l', Forall2 P l l' -> (forall a b, P a b -> P' a b) -> Forall2 P' l l') by (intros A P P' l l' X Y; induction X; constructor; auto).
  split; intros HC.
  - destruct across_mod as (M2 & M1 & M0). pose proof (run_alike _ _ _ cs cs' (across_alike cs cs' HC) [] [] (Forall2_nil _)) as RL.
    destruct (tables_alike across true true false M2 M1 M0 (nodes_of m) _ _ (3 * n + 3) _ _ _ _ _ _ RL EF EF' ED ED' ER ER') as (T1 & T2 & T3).
    destruct (beam_alike across across_class across_dm solve solve' SO SO' n _ _ _ _ _ _ _ _ _ _ _ _ _ UK T1 T2 T3 EB EB') as (X1 & X2 & X3).
    rewrite SZ in X1. split.
    + eapply WEAK; [exact (disp_rows_alike across across_dm (nodes_of m) d d' X1)|]. intros [a [[a1 a2] a3]] [b [[b1 b2] b3]] (Y1 & Y2 & Y3 & Y4). cbn in *. auto.
    + eapply WEAK; [exact (structural_alike across across_dm (nodes_of m) q q' _ X3 eq_refl)|]. intros [a [[a1 a2] a3]] [b [[b1 b2] b3]] (Y1 & Y2 & Y3 & Y4). cbn in *. auto.
  - destruct along_mod as (M2 & M1 & M0). pose proof (run_alike _ _ _ cs cs' (along_alike cs cs' HC) [] [] (Forall2_nil _)) as RL.
    destruct (tables_alike along false false true M2 M1 M0 (nodes_of m) _ _ (3 * n + 3) _ _ _ _ _ _ RL EF EF' ED ED' ER ER') as (T1 & T2 & T3).
    destruct (beam_alike along along_class along_dm solve solve' SO SO' n _ _ _ _ _ _ _ _ _ _ _ _ _ UK T1 T2 T3 EB EB') as (X1 & X2 & X3).
    rewrite SZ in X1. split.
    + eapply WEAK; [exact (disp_rows_alike along along_dm (nodes_of m) d d' X1)|]. intros [a [[a1 a2] a3]] [b [[b1 b2] b3]] (Y1 & Y2 & Y3 & Y4). cbn in *. auto.
    + eapply WEAK; [exact (structural_alike along along_dm (nodes_of m) q q' _ X3 eq_refl)|]. intros [a [[a1 a2] a3]] [b [[b1 b2] b3]] (Y1 & Y2 & Y3 & Y4). cbn in *. auto.
Qed.
Print Assumptions C141_tables.

(** What an analysis with soil reports across the pile does depend on the loads along it: the tolerance is taken from all loads
    together.  For every pile as in C132_slow_refuted there are a spring and a lateral load such that the analysis gives up
    after 100 passes (the state of rest moves the tip by 1 mm), while with any load along the pile from some size on, at any node that can move, it
    reports success after two passes and a tip displacement of at most 0.06 mm. *)
Theorem C141_reported_refuted : forall solve M0 z r W a, solver_ok solve -> sound_pile M0 z -> elements_apart M0 -> held (w_n M0) (supports_of r zero) ->
  let t := (3 * w_n M0 + 1)%nat in supports_of r zero t = false -> (a <= w_n M0)%nat -> supports_of r zero (3 * a)%nat = false ->
  let K := jit_build (w_n M0) (w_mech M0) in unit_response (SpringModel.size M0) K (supports_of r zero) t W ->
  sum (SpringModel.size M0) (fun i => if supports_of r zero i then mulv (SpringModel.size M0) K W i * mulv (SpringModel.size M0) K W i else 0) <= 20000 ->
  exists c f P0, let M := on_base M0 c in let F := fun i => if Nat.eqb i t then f else 0 in let loaded := fun P i => F i + if Nat.eqb i (3 * a) then P else 0 in
    one_spring (w_n M) (w_qz M) (w_hb M) (w_mb M) t c /\ lateral_curve c /\ concave c /\ (forall P, agree (SpringModel.size M) across F (loaded P)) /\
    (exists V, at_rest (w_n M) K (w_qz M) (w_hb M) (w_mb M) F zero (supports_of r zero) V /\ V t == 1#1000) /\
    forall mi P, (99 <= mi)%nat -> P0 <= P -> exists o o' d', winkler_model solve M F zero r mi = Ok o /\ winkler_model solve M (loaded P) zero r mi = Ok o' /\
      o_d o = None /\ o_iter o = 100%nat /\ o_d o' = Some d' /\ o_iter o' = 2%nat /\ settled o' /\ 0 < d' t /\ d' t <= 6#100000.
Proof.
  intros solve M0 z r W a SO SP0 EA HL t Hf Ha Hfa K HW RE.
  assert (Ht : (t < SpringModel.size M0)%nat) by (unfold t, SpringModel.size; lia). assert (Hh : (3 * a < SpringModel.size M0)%nat) by (unfold SpringModel.size; lia).
  assert (NE : (3 * a)%nat <> t) by (unfold t; lia).
  pose proof (w_pos (SpringModel.size M0) _ K t W Ht Hf (pile_psd M0 z SP0) (pile_definite M0 z _ SP0 HL) HW) as WP.
  set (p := (1#20) / W t). assert (P0 : 0 < p) by (unfold p, Qdiv; apply mul_pos; [reflexivity|apply Qinv_lt_0_compat; exact WP]).
  assert (PW : p * W t == 1#20) by (unfold p; field; lra).
  destruct (early_curve p P0) as [LC CC]. exists (early p), ((51#1000) / W t), (10 / W t). intros M F loaded.
  assert (SP : sound_pile M z) by (destruct SP0 as [A B]; constructor; [exact A|exact B]).
  assert (BO : base_only M) by (repeat split).
  assert (OS : one_spring (w_n M) (w_qz M) (w_hb M) (w_mb M) t (early p)) by (split; [reflexivity|left; repeat split]).
  split; [exact OS|]. split; [exact LC|]. split; [exact CC|]. split.
  { intros P i _ Di. unfold loaded. destruct (Nat.eqb_spec i (3 * a)) as [->|]; [|ring]. exfalso. unfold across in Di. replace (3 * a)%nat with (0 + a * 3)%nat in Di by lia. rewrite Nat.mod_add in Di by lia. discriminate Di. }
  split.
  { destruct (rest_exists M z _ t (early p) SP OS LC HL Hf F zero) as [V RV]. exists V. split; [exact RV|].
    assert (HD : without_springs (SpringModel.size M) K F zero (supports_of r zero) (fun i => (51#1000) / W t * W i)).
    { destruct HW as [W1 W2]. split; [intros i Hi Ri; rewrite (W1 i Hi Ri); unfold zero; ring|]. intros i Hi Ri. rewrite mulv_scale. change (SpringModel.size M) with (SpringModel.size M0). rewrite (W2 i Hi Ri). unfold F. destruct (Nat.eqb i t); ring. }
    pose proof (rest_equation M z _ t (early p) SP OS LC HL F zero V W _ RV HW HD) as YR. cbv beta in YR.
    assert (X : (51#1000) / W t * W t == 51#1000) by (field; lra).
    pose proof (Qabs_nonneg (V t)) as N. pose proof (p_nonneg (early p) LC _ N) as PN. pose proof (mul_nonneg _ _ (Qlt_le_weak _ _ WP) PN) as WN.
    unfold direction in YR. destruct (Qltb (V t) 0) eqn:S; [exfalso; rewrite X in YR; lra|]. apply Qltb_false in S. rewrite X in YR.
    pose proof (Qabs_pos (V t) S) as AV. rewrite (p_comp (early p) _ _ AV), AV in YR.
    destruct (Qlt_le_dec (V t) (1#20000)) as [L|L]; [exfalso|].
    + assert (B : interp (V t) (early p) <= p) by (pose proof (early_at p (1#20000) ltac:(lra)) as EE; apply Qle_trans with (interp (1#20000) (early p)); [apply (p_mono (early p) LC); lra|lra]).
      assert (B2 : W t * interp (V t) (early p) <= W t * p) by (rewrite !(Qmult_comm (W t)); apply le_mul; lra). rewrite (Qmult_comm (W t) p), PW in B2. lra.
    + rewrite (early_at p _ L), (Qmult_comm (W t) p), PW in YR. lra. }
  intros mi P HM HP. destruct (curve_softening (early p) LC CC) as [SF BS].
  assert (KI : forall u, stiffness_of (early p) u Initial * W t == 1000) by (intros u; rewrite (sf_init _ _ _ SF u); unfold steepest, early, point; cbn [nth fst snd]; unfold p; field; lra).
  assert (KS : forall u, 1#20000 <= u -> u <= 1#2000 -> 0 <= stiffness_of (early p) u Secant /\ stiffness_of (early p) u Secant * u * W t == 1#20).
  { intros u A B. destruct (early_secant p P0 u A) as [S0 SE]. split; [exact S0|]. rewrite SE. exact PW. }
  assert (KT : forall u, 1#20000 <= u -> u <= 1#2000 -> 0 <= stiffness_of (early p) u Tangent /\ stiffness_of (early p) u Tangent * u * W t == 1#20).
  { intros u A B. destruct (early_tangent p P0 u A B) as [S0 SE]. split; [exact S0|]. rewrite SE. exact PW. }
  (* the movement along the pile *)
  destruct (response_exists M z _ SP HL (fun i => if Nat.eqb i (3 * a) then 1 else 0) zero) as [V HV]. change (SpringModel.size M) with (SpringModel.size M0) in HV. change (jit_build (w_n M) (w_mech M)) with K in HV.
  assert (UC : uncoupled K) by (apply jit_build_uncoupled; exact EA).
  assert (AT : along t = false) by (unfold along, t; replace (3 * w_n M0 + 1)%nat with (1 + w_n M0 * 3)%nat by lia; rewrite Nat.mod_add by lia; reflexivity).
  assert (VT : V t == 0).
  { set (x := fun i => if along i then 0 else V i). assert (XZ : forall i, (i < SpringModel.size M0)%nat -> x i == 0); [|specialize (XZ t Ht); unfold x in XZ; rewrite AT in XZ; exact XZ].
    apply (bare_stable (SpringModel.size M0) (supports_of r zero) K (pile_definite M0 z _ SP0 HL)).
    - intros i Hi Si. unfold x. destruct (along i); [reflexivity|]. exact (proj1 HV i Hi Si).
    - intros i Hi Si. pose proof (proj2 HV i Hi Si) as E. cbv beta in E. destruct (along i) eqn:AI.
      + unfold mulv. apply sum_zero. intros j Hj. unfold x. destruct (along j) eqn:AJ; [ring|]. rewrite (UC i j) by congruence. ring.
      + destruct (Nat.eqb_spec i (3 * a)) as [->|]; [exfalso; unfold along in AI; replace (3 * a)%nat with (0 + a * 3)%nat in AI by lia; rewrite Nat.mod_add in AI by lia; discriminate AI|].
        rewrite <- E. unfold mulv. apply sum_ext. intros j Hj. unfold x. destruct (along j) eqn:AJ; [|reflexivity]. rewrite (UC i j) by congruence. ring. }
  destruct (slow_winkler solve (SpringModel.size M) (SpringModel.build M) (supports_of r zero) K t (stiffness_of (early p)) W SO Ht Hf (pile_psd M0 z SP0) (pile_definite M0 z _ SP0 HL) (one_spring_build M t (early p) BO OS BS) HW KI KS KT RE mi HM) as (o & E1 & E2 & _ & E3).
  destruct mi as [|mi]; [lia|].
  destruct (quick_winkler solve (SpringModel.size M) (SpringModel.build M) (supports_of r zero) K t (3 * a) (stiffness_of (early p)) W V SO Ht Hf Hh Hfa NE (pile_psd M0 z SP0) (pile_definite M0 z _ SP0 HL) (one_spring_build M t (early p) BO OS BS) HW HV VT KI KS KT P HP mi)
    as (o' & d' & e & tl & Q1 & Q2 & _ & Q3 & Q4 & Q5 & Q6 & Q7 & Q8).
  exists o, o', d'. split; [exact E1|]. split; [exact Q1|]. split; [exact E2|]. split; [exact E3|]. split; [exact Q2|]. split; [exact Q3|]. split; [exists e, tl; rewrite Q3; auto|]. split; [lra|exact Q8].
Qed.
Print Assumptions C141_reported_refuted.

(** ** Examples *)
(** a pile of two elements with all springs, and the same without those along it and half as stiff along itself *)
Definition mech_half : mat := match elem_mech EulerBernoulli true 1000 0 1 (1#2) 1 1 1 with Ok k => k | Err _ => fun _ _ => 0 end.
Definition soil0_across : wmodel := {| w_n := 2; w_mech := fun _ => mech_half; w_L := fun _ => 1;
  w_py := w_py soil0; w_tz := None; w_mt := w_mt soil0; w_mtc := w_mtc soil0; w_hb := w_hb soil0; w_mb := w_mb soil0; w_qz := None |}.
Lemma half_apart : uncoupled mech_half.
Proof. exact (elem_mech_uncoupled EulerBernoulli true 1000 0 1 (1#2) 1 1 1 mech_half eq_refl). Qed.
Lemma mech0_apart : uncoupled mech0.
Proof. exact (elem_mech_uncoupled EulerBernoulli true 1000 0 1 1 1 1 1 mech0 eq_refl). Qed.

Example C141_example : alike_across soil0 soil0_across /\ ~ mech0 0%nat 0%nat == mech_half 0%nat 0%nat /\ alike_along soil0 soil0 /\ (exists K, SpringModel.build soil0 u0 Secant = Ok K) /\
  Forall2 same_call_across [SetSupport (-1) (Some 1) (Some 1) None; SetPointload 0 (Some 10) None (Some 3)] [SetSupport (-1) (Some 1) None None; SetPointload 0 (Some 10) (Some 5000) (Some 3)].
Proof.
  assert (AC : alike_across soil0 soil0_across).
  { unfold alike_across. do 7 (split; [reflexivity|]). split; [intros e _; exact mech0_apart|]. split; [intros e _; exact half_apart|].
    intros e _ i j Di Dj. cbn [w_mech soil0 soil0_across].
    destruct i as [|[|[|[|[|[|i]]]]]]; try discriminate Di; destruct j as [|[|[|[|[|[|j]]]]]]; try discriminate Dj; try reflexivity;
      try (destruct i; reflexivity); try (destruct j; reflexivity). }
  split; [exact AC|]. split; [vm_compute; discriminate|]. split.
  { unfold alike_along. do 4 (split; [reflexivity|]). split; [intros e _; exact mech0_apart|]. split; [intros e _; exact mech0_apart|]. intros e _ i j _ _. reflexivity. }
  split.
  { assert (A : match SpringModel.build soil0 u0 Secant with Ok _ => True | Err _ => False end) by (vm_compute; exact Logic.I). destruct (SpringModel.build soil0 u0 Secant) as [K|]; [eauto|contradiction]. }
  repeat constructor.
Qed.

(** The cantilever of C132 under two different loads along it: the hypotheses of C141_across and both of its conclusions *)
Example C141_example_reported : forall solve, solver_ok solve -> exists c f P0, let M := on_base cantilever c in
  let F := fun i => if Nat.eqb i 4 then f else 0 in let loaded := fun P i => F i + if Nat.eqb i 3 then P else 0 in
  forall P, P0 <= P -> exists o o', winkler_model solve M (loaded P) zero head 100 = Ok o /\ winkler_model solve M (loaded (P + 1)) zero head 100 = Ok o' /\
    settled o /\ settled o' /\ o_iter o = o_iter o' /\ alike_across M M /\ agree 6 across (loaded P) (loaded (P + 1)) /\ ~ loaded P 3%nat == loaded (P + 1) 3%nat.
Proof.
  intros solve SO. destruct C132_example as (SP & _ & _ & _ & _ & HL & HF & UR & _ & RE).
  assert (EA : elements_apart cantilever) by (intros e _; exact mech0_apart).
  destruct (C141_reported_refuted solve cantilever z0 head tip_moved 1 SO SP EA HL HF (le_n 1) eq_refl UR RE) as (c & f & P0 & _ & _ & _ & AG & _ & RUN).
  exists c, f, P0. cbv zeta. intros P HP.
  destruct (RUN 100%nat P ltac:(lia) HP) as (_ & o & _ & _ & A1 & _ & _ & _ & A2 & A3 & _). destruct (RUN 100%nat (P + 1) ltac:(lia) ltac:(lra)) as (_ & o' & _ & _ & B1 & _ & _ & _ & B2 & B3 & _).
  exists o, o'. split; [exact A1|]. split; [exact B1|]. split; [exact A3|]. split; [exact B3|]. split; [congruence|]. split.
  - unfold alike_across. do 7 (split; [reflexivity|]). split; [exact EA|]. split; [exact EA|]. intros e _ i j _ _. reflexivity.
  - split; [intros i Hi Di; rewrite <- (AG P i Hi Di), <- (AG (P + 1) i Hi Di); reflexivity|]. cbn. lra.
Qed.
