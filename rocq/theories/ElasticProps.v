(** Property C129: in the elastic range of the springs a pile in soil is a linear structure. *)
From Coq Require Import List Bool Arith ZArith QArith Qabs Lia Lqa.
From Verif Require Import Base LinAlg PileModel BeamModel SolveModel SolveSpec SolveProofs SpringModel SpringSpec SoilProofs SpringWitness WinklerModel WinklerSpec WinklerProofs WinklerWitness EquilSpec ElasticSpec ElasticProofs ElasticWitness.
Import ListNotations.
Local Open Scope Q_scope.

(** C129: full statement: where the springs are elastic, analyses superpose and are reciprocal, and a load that is small
    enough has a proportional effect.  Partial: moment springs are covered where their curves do not depend on the lateral
    resistance, and axial springs of different slope in tension and compression only for one direction. *)

(** In the elastic range initial, secant and tangent stiffness are one matrix. *)
Theorem C129_one_stiffness : forall M k u, elastic M k u -> exists K0, build M zero Initial = Ok K0 /\
  forall kd, exists K, build M u kd = Ok K /\ forall i j, (i < size M)%nat -> (j < size M)%nat -> K i j == K0 i j.
Proof.
  intros M k u E. destruct (elastic_initial M k u Initial E) as (_ & K0 & _ & B & _). exists K0. split; [exact B|]. intros kd.
  destruct (elastic_initial M k u kd E) as (K & K0' & BK & B' & SM). rewrite B in B'. injection B' as <-. exists K. exact (conj BK SM).
Qed.
Print Assumptions C129_one_stiffness.

(** The analysis finds the state of the linear structure in two passes. *)
Theorem C129_analysis : forall solve M k F U0 r K V R max_iter, solver_ok solve -> build M zero Initial = Ok K -> stable (size M) K (supports_of r U0) ->
  linear_state (size M) K F U0 (supports_of r U0) V R -> elastic M k V -> (exists i, (i < size M)%nat /\ ~ F i == 2 * R i) -> (1 <= max_iter)%nat ->
  exists o v R', winkler_model solve M F U0 r max_iter = Ok o /\ o_iter o = 2%nat /\ o_d o = Some v /\ veq (size M) v V /\ o_Q o = Some R' /\ veq (size M) R' R.
Proof. exact elastic_analysis. Qed.
Print Assumptions C129_analysis.

(** Loads on degrees of freedom that are not supported are enough for the last condition. *)
Lemma loaded : forall n K F U0 s V R i, linear_state n K F U0 s V R -> (i < n)%nat -> s i = false -> ~ F i == 0 -> exists i, (i < n)%nat /\ ~ F i == 2 * R i.
Proof. intros n K F U0 s V R i (_ & Z & _) Hi S N. exists i. split; [exact Hi|]. rewrite (Z i Hi S). intros E. apply N. rewrite E. ring. Qed.

Lemma linear_mix : forall n K s x y F1 U1 V1 R1 F2 U2 V2 R2 F U V R, linear_state n K F1 U1 s V1 R1 -> linear_state n K F2 U2 s V2 R2 ->
  mix n x y F1 F2 F -> mix n x y U1 U2 U -> mix n x y V1 V2 V -> mix n x y R1 R2 R -> linear_state n K F U s V R.
Proof.
  intros n K s x y F1 U1 V1 R1 F2 U2 V2 R2 F U V R (A1 & B1 & C1) (A2 & B2 & C2) MF MU MV MR. split; [|split].
  - intros i Hi. assert (E : mulv n K V i == mulv n K (fun j => x * V1 j + y * V2 j) i) by (apply mulv_ext; [intros; reflexivity|exact MV]).
    rewrite E, mulv_plus, !mulv_scale, (A1 i Hi), (A2 i Hi), (MF i Hi), (MR i Hi). ring.
  - intros i Hi S. rewrite (MR i Hi), (B1 i Hi S), (B2 i Hi S). ring.
  - intros i Hi S. rewrite (MV i Hi), (MU i Hi), (C1 i Hi S), (C2 i Hi S). reflexivity.
Qed.

(** Superposition: three analyses with the same supports, the third with [x] times the loads and prescribed displacements of
    the first plus [y] times those of the second, all in the elastic range. *)
Theorem C129_superposition_partial : forall solve M k r K x y F1 P1 V1 R1 F2 P2 V2 R2 F P V, solver_ok solve -> build M zero Initial = Ok K -> stable (size M) K (supports_of r P) ->
  (forall i, supports_of r P1 i = supports_of r P i) -> (forall i, supports_of r P2 i = supports_of r P i) ->
  linear_state (size M) K F1 P1 (supports_of r P) V1 R1 -> linear_state (size M) K F2 P2 (supports_of r P) V2 R2 ->
  mix (size M) x y F1 F2 F -> mix (size M) x y P1 P2 P -> mix (size M) x y V1 V2 V ->
  elastic M k V1 -> elastic M k V2 -> elastic M k V ->
  (exists i, (i < size M)%nat /\ supports_of r P i = false /\ ~ F1 i == 0) -> (exists i, (i < size M)%nat /\ supports_of r P i = false /\ ~ F2 i == 0) ->
  (exists i, (i < size M)%nat /\ supports_of r P i = false /\ ~ F i == 0) ->
  forall max_iter, (1 <= max_iter)%nat -> exists o1 o2 o v1 v2 v q1 q2 q,
    winkler_model solve M F1 P1 r max_iter = Ok o1 /\ winkler_model solve M F2 P2 r max_iter = Ok o2 /\ winkler_model solve M F P r max_iter = Ok o /\
    o_d o1 = Some v1 /\ o_d o2 = Some v2 /\ o_d o = Some v /\ o_Q o1 = Some q1 /\ o_Q o2 = Some q2 /\ o_Q o = Some q /\
    mix (size M) x y v1 v2 v /\ mix (size M) x y q1 q2 q.
Proof.
  intros solve M k r K x y F1 P1 V1 R1 F2 P2 V2 R2 F P V SO B ST S1 S2 L1 L2 MF MP MV E1 E2 E (i1 & I1 & J1 & N1) (i2 & I2 & J2 & N2) (i3 & I3 & J3 & N3) mi Hm.
  assert (STX : forall P', (forall i, supports_of r P' i = supports_of r P i) -> stable (size M) K (supports_of r P')).
  { intros P' EQ v A C. apply ST; intros i Hi S; [apply A|apply C]; auto; rewrite EQ; exact S. }
  assert (LX : forall F' P' V' R', (forall i, supports_of r P' i = supports_of r P i) -> linear_state (size M) K F' P' (supports_of r P) V' R' -> linear_state (size M) K F' P' (supports_of r P') V' R').
  { intros F' P' V' R' EQ (A & C & D). split; [exact A|]. split; intros i Hi S; rewrite EQ in S; [apply C|apply D]; assumption. }
  pose proof (linear_mix (size M) K _ x y F1 P1 V1 R1 F2 P2 V2 R2 F P V (fun i => x * R1 i + y * R2 i) L1 L2 MF MP MV (fun i _ => Qeq_refl _)) as L.
  destruct (elastic_analysis solve M k F1 P1 r K V1 R1 mi SO B (STX P1 S1) (LX _ _ _ _ S1 L1) E1 (loaded _ _ _ _ _ _ _ _ L1 I1 J1 N1) Hm) as (o1 & v1 & q1 & A1 & _ & A2 & A3 & A4 & A5).
  destruct (elastic_analysis solve M k F2 P2 r K V2 R2 mi SO B (STX P2 S2) (LX _ _ _ _ S2 L2) E2 (loaded _ _ _ _ _ _ _ _ L2 I2 J2 N2) Hm) as (o2 & v2 & q2 & B1 & _ & B2 & B3 & B4 & B5).
  destruct (elastic_analysis solve M k F P r K V _ mi SO B ST L E (loaded _ _ _ _ _ _ _ _ L I3 J3 N3) Hm) as (o & v & q & C1 & _ & C2 & C3 & C4 & C5).
  exists o1, o2, o, v1, v2, v, q1, q2, q. do 9 (split; [assumption|]). split; intros i Hi.
  - rewrite (C3 i Hi), (A3 i Hi), (B3 i Hi). apply MV, Hi.
  - rewrite (C5 i Hi), (A5 i Hi), (B5 i Hi). reflexivity.
Qed.
Print Assumptions C129_superposition_partial.

(** A weighted mean of two states in the elastic range is in the elastic range, so the third condition is met. *)
Theorem C129_convex : forall M k u v w x y, elastic M k u -> elastic M k v -> 0 <= x -> 0 <= y -> x + y <= 1 -> mix (size M) x y u v w -> elastic M k w.
Proof. exact elastic_mix. Qed.
Print Assumptions C129_convex.

(** Reciprocity: the loads and reactions of one analysis do the same work on the displacements of the other as the other way round. *)
Theorem C129_reciprocity_partial : forall solve M z k r r' K F P V R F' P' V' R', solver_ok solve -> sound_model M z -> build M zero Initial = Ok K ->
  stable (size M) K (supports_of r P) -> stable (size M) K (supports_of r' P') ->
  linear_state (size M) K F P (supports_of r P) V R -> linear_state (size M) K F' P' (supports_of r' P') V' R' -> elastic M k V -> elastic M k V' ->
  (exists i, (i < size M)%nat /\ ~ F i == 2 * R i) -> (exists i, (i < size M)%nat /\ ~ F' i == 2 * R' i) ->
  forall max_iter, (1 <= max_iter)%nat -> exists o o' v v' q q',
    winkler_model solve M F P r max_iter = Ok o /\ winkler_model solve M F' P' r' max_iter = Ok o' /\
    o_d o = Some v /\ o_d o' = Some v' /\ o_Q o = Some q /\ o_Q o' = Some q' /\
    dot (size M) (fun i => F i + q i) v' == dot (size M) (fun i => F' i + q' i) v.
Proof.
  intros solve M z k r r' K F P V R F' P' V' R' SO SM B ST ST' L L' E E' N N' mi Hm.
  destruct (elastic_analysis solve M k F P r K V R mi SO B ST L E N Hm) as (o & v & q & A1 & _ & A2 & A3 & A4 & A5).
  destruct (elastic_analysis solve M k F' P' r' K V' R' mi SO B ST' L' E' N' Hm) as (o' & v' & q' & B1 & _ & B2 & B3 & B4 & B5).
  exists o, o', v, v', q, q'. do 6 (split; [assumption|]).
  pose proof (system_symmetric M z zero Initial K SM B) as SY. pose proof (symmetric_work (size M) K V' V SY) as W. destruct L as (LE & _). destruct L' as (LE' & _).
  rewrite (dot_ext (size M) (fun i => F i + q i) v' (mulv (size M) K V) V').
  2: { intros i Hi. rewrite (LE i Hi), (A5 i Hi). reflexivity. }
  2: { intros i Hi. apply B3, Hi. }
  rewrite (dot_ext (size M) (fun i => F' i + q' i) v (mulv (size M) K V') V).
  2: { intros i Hi. rewrite (LE' i Hi), (B5 i Hi). reflexivity. }
  2: { intros i Hi. apply A3, Hi. }
  rewrite (dot_sym _ (mulv (size M) K V) V'), (dot_sym _ (mulv (size M) K V') V). exact W.
Qed.
Print Assumptions C129_reciprocity_partial.

(** Small loads: whatever the loads, one can make them so small that displacements and reactions are proportional to them.  The
    curves have to start at the origin with increasing displacements and never fall; wherever the pile is
    pulled up, the axial curves have to start with one slope in both directions. *)
Theorem C129_small_loads_partial : forall solve M r K F P V R, solver_ok solve -> regular M -> build M zero Initial = Ok K -> stable (size M) K (supports_of r P) ->
  linear_state (size M) K F P (supports_of r P) V R -> either_way M V -> (exists i, (i < size M)%nat /\ ~ F i == 2 * R i) ->
  exists t0, 0 < t0 /\ forall t, 0 < t -> t <= t0 -> forall max_iter, (1 <= max_iter)%nat ->
  exists o v q, winkler_model solve M (fun i => t * F i) (fun i => t * P i) r max_iter = Ok o /\ o_iter o = 2%nat /\
    o_d o = Some v /\ o_Q o = Some q /\ (forall i, (i < size M)%nat -> v i == t * V i /\ q i == t * R i).
Proof.
  intros solve M r K F P V R SO RG B ST L SE (i0 & I0 & N0). destruct (small_elastic M V RG SE) as (t0 & T0 & EL). exists t0. split; [exact T0|].
  intros t T Le mi Hm.
  assert (SS : forall i, supports_of r (fun i => t * P i) i = supports_of r P i).
  { intros i. unfold supports_of. f_equal. f_equal. destruct (Qeq_bool (P i) 0) eqn:Z.
    - apply Qeq_bool_iff in Z. apply Qeq_bool_iff. rewrite Z. ring.
    - destruct (Qeq_bool (t * P i) 0) eqn:Z'; [|reflexivity]. apply Qeq_bool_iff in Z'. apply Qmult_integral in Z'. destruct Z' as [Z'|Z']; [lra|]. apply Qeq_bool_iff in Z'. congruence. }
  assert (L' : linear_state (size M) K (fun i => t * F i) (fun i => t * P i) (supports_of r (fun i => t * P i)) (fun i => t * V i) (fun i => t * R i)).
  { destruct L as (A & C & D). split; [|split].
    - intros i Hi. rewrite mulv_scale, (A i Hi). ring.
    - intros i Hi S. rewrite SS in S. rewrite (C i Hi S). ring.
    - intros i Hi S. rewrite SS in S. rewrite (D i Hi S). reflexivity. }
  destruct (elastic_analysis solve M (first_slopes M) (fun i => t * F i) (fun i => t * P i) r K (fun i => t * V i) (fun i => t * R i) mi SO B) as (o & v & q & A1 & A2 & A3 & A4 & A5 & A6); auto.
  - intros w A C. apply ST; intros i Hi S; [apply A|apply C]; auto; rewrite SS; exact S.
  - exists i0. split; [exact I0|]. intros E. apply N0. assert (X : t * (F i0 - 2 * R i0) == 0) by (setoid_replace (t * (F i0 - 2 * R i0)) with (t * F i0 - 2 * (t * R i0)) by ring; rewrite E; ring).
    apply Qmult_integral in X. destruct X; lra.
  - exists o, v, q. do 4 (split; [assumption|]). intros i Hi. split; [apply A4, Hi|apply A6, Hi].
Qed.
Print Assumptions C129_small_loads_partial.

(** Beyond the elastic range superposition fails: loads that move a pile by one centimetre, doubled, do not move it by two. *)
Theorem C129_beyond_refuted : exists M F F2 V, regular M /\ (forall i, (i < size M)%nat -> F2 i == 2 * F i) /\
  (forall solve max_iter, solver_ok solve -> (1 <= max_iter)%nat -> exists o v, winkler_model solve M F zero free max_iter = Ok o /\ o_d o = Some v /\ veq (size M) v V) /\
  (forall solve max_iter o v, solver_ok solve -> (99 <= max_iter)%nat -> winkler_model solve M F2 zero free max_iter = Ok o -> o_d o = Some v ->
     exists i, (i < size M)%nat /\ ~ v i == 2 * V i).
Proof.
  exists soil_e, push1, push2, moved1. split; [exact soil_e_regular|]. split.
  { intros i Hi. change (size soil_e) with 6%nat in Hi. do 6 (destruct i as [|i]; [vm_compute; reflexivity|]). lia. }
  split; [|exact not_twice]. intros solve mi SO Hm. destruct initial_e as (K & B & ST & L & _).
  destruct (C129_analysis solve soil_e (first_slopes soil_e) push1 zero free K moved1 zero mi SO B ST L) as (o & v & q & A1 & _ & A2 & A3 & _).
  - apply soil_e_elastic. intros a Ha. destruct a as [|[|]]; [| |lia]; (split; [discriminate|split; discriminate]).
  - exists 1%nat. split; [cbn; lia|discriminate].
  - exact Hm.
  - exists o, v. exact (conj A1 (conj A2 A3)).
Qed.
Print Assumptions C129_beyond_refuted.

(** A pile pushed at its head and one pushed all along: the hypotheses of the theorems above are met. *)
Example C129_case : exists K, build soil_e zero Initial = Ok K /\ stable (size soil_e) K (supports_of free zero) /\
  linear_state (size soil_e) K push1 zero (supports_of free zero) moved1 zero /\ linear_state (size soil_e) K head1 zero (supports_of free zero) under_head zero /\
  elastic soil_e (first_slopes soil_e) moved1 /\ elastic soil_e (first_slopes soil_e) under_head /\
  elastic soil_e (first_slopes soil_e) (fun i => (1#2) * moved1 i + (1#2) * under_head i) /\ sound_model soil_e z0 /\ regular soil_e /\ settling soil_e under_head /\
  ~ head1 1%nat == 0 /\ ~ push1 1%nat == 0.
Proof.
  destruct initial_e as (K & B & ST & L1 & L2). exists K. do 4 (split; [assumption|]).
  assert (E1 : elastic soil_e (first_slopes soil_e) moved1) by (apply soil_e_elastic; intros a Ha; destruct a as [|[|]]; [| |lia]; (split; [discriminate|split; discriminate])).
  assert (E2 : elastic soil_e (first_slopes soil_e) under_head) by (apply soil_e_elastic; intros a Ha; destruct a as [|[|]]; [| |lia]; (split; [discriminate|split; discriminate])).
  split; [exact E1|]. split; [exact E2|]. split; [apply (C129_convex _ _ moved1 under_head _ (1#2) (1#2) E1 E2); try discriminate; intros i _; reflexivity|].
  split; [exact soil_e_sound|]. split; [exact soil_e_regular|].
  split; [intros a Ha; change (w_n soil_e) with 1%nat in Ha; destruct a as [|[|]]; [discriminate|discriminate|lia]|]. split; discriminate.
Qed.

(** A pile pulled at its head: it moves up, and the small loads are in proportion all the same. *)
Example C129_pulled_case : exists K, let V := fun i => - under_head i in let F := fun i => - head1 i in
  build soil_e zero Initial = Ok K /\ stable (size soil_e) K (supports_of free zero) /\ linear_state (size soil_e) K F zero (supports_of free zero) V zero /\
  regular soil_e /\ either_way soil_e V /\ ~ settling soil_e V /\ ~ F 0%nat == 2 * zero 0%nat /\ 0 < V 0%nat.
Proof.
  destruct initial_e as (K & B & ST & _ & L). exists K. cbv zeta. split; [exact B|]. split; [exact ST|]. split.
  { destruct L as (A & C & D). split; [|split].
    - intros i Hi. assert (E : mulv (size soil_e) K (fun i => - under_head i) i == mulv (size soil_e) K (fun i => (-1) * under_head i) i) by (apply sum_ext; intros; ring).
      rewrite E, mulv_scale, (A i Hi). unfold zero. ring.
    - exact C.
    - intros i Hi Z. discriminate Z. }
  split; [exact soil_e_regular|]. split.
  { split; [|intros c E; discriminate E]. intros tz E e j a _ _ _. cbn [w_tz soil_e] in E. injection E as <-. right.
    intros m LE. assert (m = 1%nat) by (cbn in LE; lia). subst m. vm_compute. reflexivity. }
  split; [intros SE; specialize (SE 0%nat ltac:(cbn; lia)); vm_compute in SE; apply SE; reflexivity|]. split; [vm_compute; discriminate|vm_compute; reflexivity].
Qed.
