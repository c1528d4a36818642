(** Property C148: of two piles in soil, the one with the stiffer springs, the stiffer elements or more supports gives way less. *)
From Coq Require Import List Bool Arith ZArith QArith Qabs Lia Lqa Setoid.
From Verif Require Import Base LinAlg PileModel BeamModel BeamSpec BeamProofs SolveModel SolveSpec SolveProofs ForceProofs SpringModel SpringSpec SpringProofs SoilProofs SpringProper SpringWitness WinklerModel WinklerSpec WinklerProofs WinklerWitness EquilSpec EquilProofs ElasticSpec ElasticProofs ElasticWitness ElasticProps StiffSpec StiffProofs WorkSpec WorkProofs UnitWitness SturdySpec SturdyProofs SturdyWitness.
Import ListNotations.
Local Open Scope Q_scope.

(** C148: full statement: under the same loads the loads do less work on the sturdier of two piles in soil, and a single load
    moves its own degree of freedom less.  Partial: springs in their elastic range (moment springs as in C129). *)

Lemma state_free : forall n K F U r V R, (forall i, (i < n)%nat -> U i == 0) -> linear_state n K F U (supports_of r U) V R ->
  (forall i, (i < n)%nat -> r i = true -> V i == 0) /\ (forall i, (i < n)%nat -> r i = false -> mulv n K V i == F i).
Proof.
  intros n K F U r V R UZ (A & B & C). split; intros i Hi E; rewrite <- (unprescribed n r U UZ i Hi) in E.
  - rewrite (C i Hi E). apply UZ, Hi.
  - rewrite (A i Hi), (B i Hi E). ring.
Qed.

(** The analyses of both piles succeed, in two passes, and the loads do no more work on the sturdier one; what they do less is
    at least the energy of the difference of the two deformations. *)
Theorem C148_work_partial : forall solve solve' M M' z z' s s' F U r r' K K' V V' R R' max_iter max_iter', solver_ok solve -> solver_ok solve' ->
  sound_model M z -> sound_model M' z' -> sturdier M M' s s' -> more_supports (w_n M) r r' -> (forall i, (i < size M)%nat -> U i == 0) ->
  build M zero Initial = Ok K -> stable (size M) K (supports_of r U) -> linear_state (size M) K F U (supports_of r U) V R -> elastic M s V ->
  build M' zero Initial = Ok K' -> stable (size M') K' (supports_of r' U) -> linear_state (size M') K' F U (supports_of r' U) V' R' -> elastic M' s' V' ->
  (exists i, (i < size M)%nat /\ ~ F i == 2 * R i) -> (exists i, (i < size M')%nat /\ ~ F i == 2 * R' i) -> (1 <= max_iter)%nat -> (1 <= max_iter')%nat ->
  exists o v o' v', winkler_model solve M F U r max_iter = Ok o /\ o_iter o = 2%nat /\ o_d o = Some v /\
    winkler_model solve' M' F U r' max_iter' = Ok o' /\ o_iter o' = 2%nat /\ o_d o' = Some v' /\
    0 <= dot (size M) F v' /\ dot (size M) F v' + energy (size M) K (fun i => v' i - v i) <= dot (size M) F v /\
    0 <= energy (size M) K (fun i => v' i - v i).
Proof.
  intros solve solve' M M' z z' s s' F U r r' K K' V V' R R' mi mi' SO SO' SM SM' SD MS UZ HB ST L EL HB' ST' L' EL' N N' Hm Hm'.
  assert (ES : size M' = size M) by (unfold size; destruct SD as [-> _]; reflexivity).
  destruct (C129_analysis solve M s F U r K V R mi SO HB ST L EL N Hm) as (o & v & q & A1 & A2 & A3 & A4 & _).
  destruct (C129_analysis solve' M' s' F U r' K' V' R' mi' SO' HB' ST' L' EL' N' Hm') as (o' & v' & q' & B1 & B2 & B3 & B4 & _).
  exists o, v, o', v'. do 6 (split; [assumption|]). rewrite ES in *.
  destruct (state_free _ _ _ _ _ _ _ UZ L) as [V0 VF]. destruct (state_free _ _ _ _ _ _ _ UZ L') as [V0' VF'].
  assert (E0 : elastic M s zero /\ elastic M' s' zero) by (split; eapply elastic_rest; eassumption). destruct E0 as [E0 E0'].
  pose proof (system_symmetric M z zero Initial K SM HB) as SY. pose proof (system_psd M z zero Initial K SM HB) as PS.
  pose proof (work_gap_supports (size M) K K' F V V' r r' SY MS V0 VF V0' VF') as G.
  pose proof (sturdier_energy M M' z z' s s' zero zero Initial Initial K K' V' SM SM' SD E0 E0' HB HB') as C.
  pose proof (balanced_work (size M) K' F V' r' V' V0' VF') as W'. fold (energy (size M) K' V') in W'.
  pose proof (system_psd M' z' zero Initial K' SM' HB' V') as P'. rewrite ES in P'.
  assert (D : dot (size M) F v == dot (size M) F V) by (unfold dot; apply sum_ext; intros i Hi; rewrite (A4 i Hi); reflexivity).
  assert (D' : dot (size M) F v' == dot (size M) F V') by (unfold dot; apply sum_ext; intros i Hi; rewrite (B4 i Hi); reflexivity).
  assert (G' : energy (size M) K (fun i => v' i - v i) == energy (size M) K (fun i => V' i - V i)) by (apply energy_ext; [intros; reflexivity|intros i Hi; rewrite (A4 i Hi), (B4 i Hi); reflexivity]).
  rewrite D, D', G'. pose proof (PS (fun i => V' i - V i)) as P. split; [lra|]. split; [lra|exact P].
Qed.
Print Assumptions C148_work_partial.

(** A single load moves its own degree of freedom less, and not against its direction. *)
Theorem C148_under_the_load_partial : forall solve solve' M M' z z' s s' F U r r' K K' V V' R R' max_iter max_iter' i, solver_ok solve -> solver_ok solve' ->
  sound_model M z -> sound_model M' z' -> sturdier M M' s s' -> more_supports (w_n M) r r' -> (forall i, (i < size M)%nat -> U i == 0) -> single (size M) i F ->
  build M zero Initial = Ok K -> stable (size M) K (supports_of r U) -> linear_state (size M) K F U (supports_of r U) V R -> elastic M s V ->
  build M' zero Initial = Ok K' -> stable (size M') K' (supports_of r' U) -> linear_state (size M') K' F U (supports_of r' U) V' R' -> elastic M' s' V' ->
  r' i = false -> (1 <= max_iter)%nat -> (1 <= max_iter')%nat ->
  exists o v o' v', winkler_model solve M F U r max_iter = Ok o /\ o_d o = Some v /\ winkler_model solve' M' F U r' max_iter' = Ok o' /\ o_d o' = Some v' /\
    Qabs (v' i) <= Qabs (v i) /\ 0 <= F i * v' i /\ 0 <= F i * v i.
Proof.
  intros solve solve' M M' z z' s s' F U r r' K K' V V' R R' mi mi' i SO SO' SM SM' SD MS UZ (Hi & NZ & Z) HB ST L EL HB' ST' L' EL' Ri' Hm Hm'.
  assert (ES : size M' = size M) by (unfold size; destruct SD as [-> _]; reflexivity).
  assert (Ri : r i = false) by (destruct (r i) eqn:E; [rewrite (MS i Hi E) in Ri'; discriminate|reflexivity]).
  assert (N : exists i, (i < size M)%nat /\ ~ F i == 2 * R i) by (apply (loaded _ _ _ _ _ _ _ i L Hi); [rewrite (unprescribed _ _ _ UZ i Hi); exact Ri|exact NZ]).
  assert (N' : exists i, (i < size M')%nat /\ ~ F i == 2 * R' i).
  { rewrite ES in *. apply (loaded _ _ _ _ _ _ _ i L' Hi); [rewrite (unprescribed _ _ _ UZ i Hi); exact Ri'|exact NZ]. }
  destruct (C148_work_partial solve solve' M M' z z' s s' F U r r' K K' V V' R R' mi mi' SO SO' SM SM' SD MS UZ HB ST L EL HB' ST' L' EL' N N' Hm Hm')
    as (o & v & o' & v' & A1 & _ & A2 & B1 & _ & B2 & C1 & C2 & C3).
  exists o, v, o', v'. do 4 (split; [assumption|]). rewrite !(dot_single _ F _ i Hi Z) in C2. rewrite (dot_single _ F _ i Hi Z) in C1.
  split; [apply (abs_le_from (F i) (v' i) (v i) NZ C1); lra|]. split; [exact C1|lra].
Qed.
Print Assumptions C148_under_the_load_partial.

(** At any load: where no spring of the first pile exceeds its initial stiffness, and the second pile is in its elastic range with
    slopes at least those initial ones, the loads do no more work on the second pile than on the first one at rest. *)
Theorem C148_bound_partial : forall solve' M M' z z' s s' F U r r' K' V V' R' max_iter', solver_ok solve' ->
  sound_model M z -> sound_model M' z' -> sturdier M M' s s' -> more_supports (w_n M) r r' -> (forall i, (i < size M)%nat -> U i == 0) ->
  softening_soil zero_index M -> elastic M s zero -> balanced M F U r V ->
  build M' zero Initial = Ok K' -> stable (size M') K' (supports_of r' U) -> linear_state (size M') K' F U (supports_of r' U) V' R' -> elastic M' s' V' ->
  (exists i, (i < size M')%nat /\ ~ F i == 2 * R' i) -> (1 <= max_iter')%nat ->
  exists o' v', winkler_model solve' M' F U r' max_iter' = Ok o' /\ o_d o' = Some v' /\ 0 <= dot (size M) F v' /\ dot (size M) F v' <= dot (size M) F V /\
    (forall i, single (size M) i F -> Qabs (v' i) <= Qabs (V i)).
Proof.
  intros solve' M M' z z' s s' F U r r' K' V V' R' mi' SO' SM SM' SD MS UZ SF E0 (Ks & HS & VU & VF) HB' ST' L' EL' N' Hm'.
  assert (ES : size M' = size M) by (unfold size; destruct SD as [-> _]; reflexivity).
  destruct (C129_analysis solve' M' s' F U r' K' V' R' mi' SO' HB' ST' L' EL' N' Hm') as (o' & v' & q' & B1 & B2 & B3 & B4 & _).
  exists o', v'. do 2 (split; [assumption|]). rewrite ES in *. destruct (state_free _ _ _ _ _ _ _ UZ L') as [V0' VF'].
  destruct (elastic_builds M s zero Initial E0) as [K HB]. pose proof (elastic_rest M' s' V' EL') as E0'.
  assert (V0 : forall i, (i < size M)%nat -> r i = true -> V i == 0) by (intros i Hi Ri; rewrite (VU i Hi Ri); apply UZ, Hi).
  pose proof (system_symmetric M z V Secant Ks SM HS) as SY. pose proof (system_psd M z V Secant Ks SM HS) as PS.
  pose proof (work_gap_supports (size M) Ks K' F V V' r r' SY MS V0 VF V0' VF') as G.
  pose proof (sturdier_energy M M' z z' s s' zero zero Initial Initial K K' V' SM SM' SD E0 E0' HB HB') as C.
  pose proof (first_stiffest M z V zero Ks K V' SM SF HS HB) as C'.
  pose proof (balanced_work (size M) K' F V' r' V' V0' VF') as W'. fold (energy (size M) K' V') in W'.
  pose proof (system_psd M' z' zero Initial K' SM' HB' V') as P'. rewrite ES in P'. pose proof (PS (fun i => V' i - V i)) as P.
  assert (D' : dot (size M) F v' == dot (size M) F V') by (unfold dot; apply sum_ext; intros i Hi; rewrite (B4 i Hi); reflexivity).
  assert (T1 : 0 <= dot (size M) F v') by (rewrite D'; lra). assert (T2 : dot (size M) F v' <= dot (size M) F V) by (rewrite D'; lra).
  split; [exact T1|]. split; [exact T2|]. intros i (Hi & NZ & Z). rewrite !(dot_single _ F _ i Hi Z) in T2. rewrite (dot_single _ F _ i Hi Z) in T1.
  exact (abs_le_from (F i) (v' i) (V i) NZ T1 T2).
Qed.
Print Assumptions C148_bound_partial.

(** Small loads: whatever the direction of the loads, they can be made so small that the comparison holds for curves of any shape;
    only the first points of the curves count. *)
Theorem C148_small_loads_partial : forall solve solve' M M' z z' F U r r' K K' V V' R R' i, solver_ok solve -> solver_ok solve' ->
  sound_model M z -> sound_model M' z' -> regular M -> regular M' -> sturdier M M' (first_slopes M) (first_slopes M') -> more_supports (w_n M) r r' ->
  (forall i, (i < size M)%nat -> U i == 0) -> single (size M) i F -> r' i = false ->
  build M zero Initial = Ok K -> stable (size M) K (supports_of r U) -> linear_state (size M) K F U (supports_of r U) V R -> either_way M V ->
  build M' zero Initial = Ok K' -> stable (size M') K' (supports_of r' U) -> linear_state (size M') K' F U (supports_of r' U) V' R' -> either_way M' V' ->
  exists t0, 0 < t0 /\ forall t, 0 < t -> t <= t0 -> forall max_iter max_iter', (1 <= max_iter)%nat -> (1 <= max_iter')%nat ->
  exists o v o' v', winkler_model solve M (fun i => t * F i) U r max_iter = Ok o /\ o_d o = Some v /\
    winkler_model solve' M' (fun i => t * F i) U r' max_iter' = Ok o' /\ o_d o' = Some v' /\ Qabs (v' i) <= Qabs (v i).
Proof.
  intros solve solve' M M' z z' F U r r' K K' V V' R R' i SO SO' SM SM' RG RG' SD MS UZ (Hi & NZ & Z) Ri' HB ST L SE HB' ST' L' SE'.
  assert (ES : size M' = size M) by (unfold size; destruct SD as [-> _]; reflexivity).
  destruct (eventually_and _ _ (small_elastic M V RG SE) (small_elastic M' V' RG' SE')) as (t0 & T0 & EL). exists t0. split; [exact T0|].
  intros t T Le mi mi' Hm Hm'. destruct (EL t T Le) as [E1 E2].
  assert (LS : forall n Kx s Vx Rx, (forall i, (i < n)%nat -> U i == 0) -> linear_state n Kx F U s Vx Rx -> linear_state n Kx (fun i => t * F i) U s (fun i => t * Vx i) (fun i => t * Rx i)).
  { intros n Kx s Vx Rx UZ' (A & B & C). split; [|split].
    - intros j Hj. rewrite mulv_scale, (A j Hj). ring.
    - intros j Hj X. rewrite (B j Hj X). ring.
    - intros j Hj X. rewrite (C j Hj X), (UZ' j Hj). ring. }
  pose proof (LS _ _ _ _ _ UZ L) as L1. assert (UZ' : forall i, (i < size M')%nat -> U i == 0) by (rewrite ES; exact UZ). pose proof (LS _ _ _ _ _ UZ' L') as L2.
  assert (SI : single (size M) i (fun i => t * F i)).
  { split; [exact Hi|]. split; [intros X; apply Qmult_integral in X; destruct X; lra|]. intros j Hj Nj. rewrite (Z j Hj Nj). ring. }
  destruct (C148_under_the_load_partial solve solve' M M' z z' _ _ (fun i => t * F i) U r r' K K' _ _ _ _ mi mi' i SO SO' SM SM' SD MS UZ SI HB ST L1 E1 HB' ST' L2 E2 Ri' Hm Hm')
    as (o & v & o' & v' & A1 & A2 & A3 & A4 & A5 & _).
  exists o, v, o', v'. do 4 (split; [assumption|]). exact A5.
Qed.
Print Assumptions C148_small_loads_partial.

(** Not every displacement becomes smaller: with a stiffer spring at the tip, the head of a pile moves under loads that leave
    it in its place otherwise. *)
Theorem C148_everywhere_refuted : exists M M' z F, sound_model M z /\ sound_model M' z /\ sturdier M M' (first_slopes M) (first_slopes M') /\
  forall solve max_iter, solver_ok solve -> (1 <= max_iter)%nat -> exists o v o' v' i,
    winkler_model solve M F zero free max_iter = Ok o /\ o_d o = Some v /\ winkler_model solve M' F zero free max_iter = Ok o' /\ o_d o' = Some v' /\
    (i < size M)%nat /\ v i == 0 /\ 0 < v' i.
Proof.
  exists soil_e, soil_h, z0, tip_loads. split; [exact soil_e_sound|]. split; [exact soil_h_sound|]. split; [exact h_sturdier|]. intros solve mi SO Hm.
  destruct stable_e as (K & B & ST & _ & L). destruct stable_h as (K' & B' & ST' & _ & L').
  destruct (C129_analysis solve soil_e (first_slopes soil_e) tip_loads zero free K tip_e zero mi SO B ST L) as (o & v & q & A1 & _ & A2 & A3 & _).
  { apply soil_e_elastic, small6_ok. vm_compute. reflexivity. }
  { exists 1%nat. split; [cbn; lia|discriminate]. }
  { exact Hm. }
  destruct (C129_analysis solve soil_h (first_slopes soil_h) tip_loads zero free K' tip_h zero mi SO B' ST' L') as (o' & v' & q' & B1 & _ & B2 & B3 & _).
  { apply soil_h_elastic, small6_ok. vm_compute. reflexivity. }
  { exists 1%nat. split; [cbn; lia|discriminate]. }
  { exact Hm. }
  assert (X : (1 < 6)%nat) by lia. exists o, v, o', v', 1%nat. do 4 (split; [assumption|]). split; [exact X|]. split; [rewrite (A3 1%nat X); reflexivity|rewrite (B3 1%nat X); reflexivity].
Qed.
Print Assumptions C148_everywhere_refuted.

(** A pile with a lateral load on its head, and the same with a stiffer spring at the tip: the hypotheses above are met. *)
Example C148_case : exists K K', build soil_e zero Initial = Ok K /\ stable (size soil_e) K (supports_of free zero) /\
  linear_state (size soil_e) K head_h zero (supports_of free zero) moved_e zero /\ elastic soil_e (first_slopes soil_e) moved_e /\
  build soil_h zero Initial = Ok K' /\ stable (size soil_h) K' (supports_of free zero) /\
  linear_state (size soil_h) K' head_h zero (supports_of free zero) moved_h zero /\ elastic soil_h (first_slopes soil_h) moved_h /\
  sturdier soil_e soil_h (first_slopes soil_e) (first_slopes soil_h) /\ single (size soil_e) 1 head_h /\ regular soil_e /\ regular soil_h /\
  settling soil_e moved_e /\ settling soil_h moved_h /\ moved_h 1%nat < moved_e 1%nat.
Proof.
  destruct stable_e as (K & B & ST & L & _). destruct stable_h as (K' & B' & ST' & L' & _). exists K, K'.
  assert (S1 : small6 moved_e = true) by (vm_compute; reflexivity). assert (S2 : small6 moved_h = true) by (vm_compute; reflexivity).
  do 3 (split; [assumption|]). split; [apply soil_e_elastic, small6_ok; exact S1|]. do 3 (split; [assumption|]). split; [apply soil_h_elastic, small6_ok; exact S2|].
  split; [exact h_sturdier|]. split; [split; [cbn; lia|split; [discriminate|]]; intros j Hj N; change (size soil_e) with 6%nat in Hj; do 6 (destruct j as [|j]; [first [contradiction|reflexivity]|]); lia|].
  split; [exact soil_e_regular|]. split; [exact soil_h_regular|]. split; [intros a Ha; apply (small6_ok _ S1 a Ha)|]. split; [intros a Ha; apply (small6_ok _ S2 a Ha)|reflexivity].
Qed.

(** The bound at any load: the pile of C129, pushed beyond its elastic range or not, is compared with the same pile. *)
Example C148_bound_case : softening_soil zero_index soil_e /\ elastic soil_e (first_slopes soil_e) zero.
Proof.
  assert (SF : softening py0).
  { split; [cbn; lia|]. split; [repeat split|]. split; [split; reflexivity|]. intros p Hp. cbn [py0 In] in Hp. destruct Hp as [<-|[<-|[<-|[]]]]; vm_compute; discriminate. }
  assert (SX : softening_axial (zero_index (length tz_m)) tz_m).
  { split; [repeat split|]. split; [cbn; lia|]. split; [split; reflexivity|]. intros p Hp. cbn [tz_m In] in Hp. destruct Hp as [<-|[<-|[<-|[]]]]; vm_compute; discriminate. }
  split; [|apply soil_e_elastic, small6_ok; vm_compute; reflexivity]. split; [|split; [|split; [|split; [|split]]]].
  - intros py E e j _ _. cbn [w_py soil_e] in E. injection E as <-. left. exact SF.
  - intros tz E e j _ _. cbn [w_tz soil_e] in E. injection E as <-. left. exact SX.
  - intros py mt _ E. discriminate E.
  - intros c E. cbn [w_hb soil_e] in E. injection E as <-. left. exact SF.
  - intros c E. discriminate E.
  - intros c E. discriminate E.
Qed.
