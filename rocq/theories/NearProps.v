(** Property C149: stiffnesses that are known up to a small relative error give displacements and reactions up to a small relative
    error; in particular it does no harm that the spring curves are kept in single precision. *)
From Coq Require Import List Bool Arith ZArith QArith Qabs Lia Lqa Setoid.
From Verif Require Import Base LinAlg PileModel BeamModel BeamSpec BeamProofs SolveModel SolveSpec SolveProofs ForceProofs SpringModel SpringSpec SpringProofs SoilProofs SpringProper SpringWitness WinklerModel WinklerSpec WinklerProofs WinklerWitness EquilSpec EquilProofs ElasticSpec ElasticProofs ElasticWitness ElasticProps StiffSpec StiffProofs WorkSpec WorkProofs UnitWitness SturdySpec SturdyProofs SturdyWitness SturdyProps NearSpec NearProofs NearWitness.
Import ListNotations.
Local Open Scope Q_scope.

(** C149: full statement: when no element and no spring of two piles in soil is more than [1 + eps] times as stiff as its counterpart,
    the answers of the two analyses differ by a multiple of [eps].  Partial: springs in their elastic range (moment springs as in
    C129). *)

Lemma energy_same : forall n K u v, veq n u v -> energy n K u == energy n K v.
Proof. intros n K u v E. apply energy_ext; [intros; reflexivity|exact E]. Qed.

(** [g] is what a unit load at [i] does to the first pile, with all supports held.  The difference of the two answers is small
    in the energy of the first pile, and so at every degree of freedom. *)
Theorem C149_displacements_partial : forall solve solve' M M' z z' s s' F U r eps K K' V V' R R' max_iter max_iter', solver_ok solve -> solver_ok solve' ->
  sound_model M z -> sound_model M' z' -> near eps M M' s s' -> 0 <= eps -> eps < 1 ->
  build M zero Initial = Ok K -> stable (size M) K (supports_of r U) -> linear_state (size M) K F U (supports_of r U) V R -> elastic M s V ->
  build M' zero Initial = Ok K' -> stable (size M') K' (supports_of r U) -> linear_state (size M') K' F U (supports_of r U) V' R' -> elastic M' s' V' ->
  (exists i, (i < size M)%nat /\ ~ F i == 2 * R i) -> (exists i, (i < size M')%nat /\ ~ F i == 2 * R' i) -> (1 <= max_iter)%nat -> (1 <= max_iter')%nat ->
  exists o v o' v', winkler_model solve M F U r max_iter = Ok o /\ o_iter o = 2%nat /\ o_d o = Some v /\
    winkler_model solve' M' F U r max_iter' = Ok o' /\ o_iter o' = 2%nat /\ o_d o' = Some v' /\
    (1 - eps) * (1 - eps) * energy (size M) K (fun i => v' i - v i) <= eps * eps * energy (size M) K v /\
    forall i g, (i < size M)%nat -> (forall j, (j < size M)%nat -> supports_of r U j = true -> g j == 0) ->
      (forall j, (j < size M)%nat -> supports_of r U j = false -> mulv (size M) K g j == (if Nat.eqb j i then 1 else 0)) ->
      (1 - eps) * (1 - eps) * ((v' i - v i) * (v' i - v i)) <= eps * eps * (g i * energy (size M) K v).
Proof.
  intros solve solve' M M' z z' s s' F U r eps K K' V V' R R' mi mi' SO SO' SM SM' NR E0 E1 HB ST L EL HB' ST' L' EL' N N' Hm Hm'.
  assert (ES : size M' = size M) by (unfold size; destruct NR as [[-> _] _]; reflexivity).
  destruct (C129_analysis solve M s F U r K V R mi SO HB ST L EL N Hm) as (o & v & q & A1 & A2 & A3 & A4 & _).
  destruct (C129_analysis solve' M' s' F U r K' V' R' mi' SO' HB' ST' L' EL' N' Hm') as (o' & v' & q' & B1 & B2 & B3 & B4 & _).
  exists o, v, o', v'. do 6 (split; [assumption|]). rewrite ES in *. destruct L as (L1 & L2 & L3). destruct L' as (L1' & L2' & L3').
  assert (X0 : elastic M s zero /\ elastic M' s' zero) by (split; eapply elastic_rest; eassumption). destruct X0 as [X0 X0'].
  pose proof (system_symmetric M z zero Initial K SM HB) as SY. pose proof (system_psd M z zero Initial K SM HB) as PS.
  pose proof (system_symmetric M' z' zero Initial K' SM' HB') as SY'. rewrite ES in SY'.
  assert (G : (1 - eps) * (1 - eps) * energy (size M) K (fun i => V' i - V i) <= eps * eps * energy (size M) K V).
  { apply (near_solutions_first (size M) K K' F V V' (supports_of r U) eps SY SY' PS E0 E1).
    - intros w. exact (near_energy eps M M' z z' s s' zero zero Initial Initial K K' w E0 SM SM' NR X0 X0' HB HB').
    - intros i Hi Z. rewrite (L3 i Hi Z), (L3' i Hi Z). reflexivity.
    - intros i Hi Z. rewrite (L1 i Hi), (L2 i Hi Z). ring.
    - intros i Hi Z. rewrite (L1' i Hi), (L2' i Hi Z). ring. }
  assert (G' : (1 - eps) * (1 - eps) * energy (size M) K (fun i => v' i - v i) <= eps * eps * energy (size M) K v).
  { rewrite (energy_same _ K (fun i => v' i - v i) (fun i => V' i - V i)) by (intros i Hi; rewrite (A4 i Hi), (B4 i Hi); reflexivity). rewrite (energy_same _ K v V A4). exact G. }
  split; [exact G'|]. intros i g Hi GZ GU. set (x := fun i => v' i - v i) in *.
  assert (X : forall j, (j < size M)%nat -> supports_of r U j = true -> x j == 0) by (intros j Hj Z; unfold x; rewrite (A4 j Hj), (B4 j Hj), (L3 j Hj Z), (L3' j Hj Z); ring).
  assert (D1 : dot (size M) x (mulv (size M) K g) == x i).
  { rewrite (balanced_work _ K _ g _ x X GU). rewrite dot_sym. unfold dot. rewrite <- (sum_delta (size M) i x Hi). apply sum_ext. intros j Hj. destruct (Nat.eqb j i); ring. }
  assert (D2 : energy (size M) K g == g i).
  { unfold energy. rewrite (balanced_work _ K _ g _ g GZ GU). rewrite dot_sym. unfold dot. rewrite <- (sum_delta (size M) i g Hi). apply sum_ext. intros j Hj. destruct (Nat.eqb j i); ring. }
  pose proof (work_square (size M) K x g SY PS) as CS. rewrite D1, D2 in CS. change (v' i - v i) with (x i).
  pose proof (PS g) as PG. rewrite D2 in PG. assert (Q0 : 0 <= (1 - eps) * (1 - eps)) by nra.
  assert (T1 : (1 - eps) * (1 - eps) * (x i * x i) <= (1 - eps) * (1 - eps) * (energy (size M) K x * g i)) by (rewrite !(Qmult_comm ((1 - eps) * (1 - eps))); apply Qmult_le_compat_r; assumption).
  assert (T2 : (1 - eps) * (1 - eps) * energy (size M) K x * g i <= eps * eps * energy (size M) K v * g i) by (apply Qmult_le_compat_r; assumption). lra.
Qed.
Print Assumptions C149_displacements_partial.

Lemma square_abs : forall a b, 0 <= a -> 0 <= b -> a * a <= b * b -> a <= b.
Proof. intros a b A B H. destruct (Qlt_le_dec b a) as [L|L]; [|exact L]. exfalso. nra. Qed.

(** Where a single load acts: the relative error of the displacement is at most [eps / (1 - eps)]. *)
Theorem C149_under_the_load_partial : forall solve solve' M M' z z' s s' F U r eps K K' V V' R R' max_iter max_iter' i, solver_ok solve -> solver_ok solve' ->
  sound_model M z -> sound_model M' z' -> near eps M M' s s' -> 0 <= eps -> eps < 1 -> (forall i, (i < size M)%nat -> U i == 0) -> single (size M) i F -> r i = false ->
  build M zero Initial = Ok K -> stable (size M) K (supports_of r U) -> linear_state (size M) K F U (supports_of r U) V R -> elastic M s V ->
  build M' zero Initial = Ok K' -> stable (size M') K' (supports_of r U) -> linear_state (size M') K' F U (supports_of r U) V' R' -> elastic M' s' V' ->
  (1 <= max_iter)%nat -> (1 <= max_iter')%nat ->
  exists o v o' v', winkler_model solve M F U r max_iter = Ok o /\ o_d o = Some v /\ winkler_model solve' M' F U r max_iter' = Ok o' /\ o_d o' = Some v' /\
    (1 - eps) * Qabs (v' i - v i) <= eps * Qabs (v i) /\
    forall j g, (j < size M)%nat -> (forall k, (k < size M)%nat -> r k = true -> g k == 0) ->
      (forall k, (k < size M)%nat -> r k = false -> mulv (size M) K g k == (if Nat.eqb k j then 1 else 0)) ->
      (1 - eps) * (1 - eps) * ((v' j - v j) * (v' j - v j)) <= eps * eps * (g j * (F i * v i)).
Proof.
  intros solve solve' M M' z z' s s' F U r eps K K' V V' R R' mi mi' i SO SO' SM SM' NR E0 E1 UZ (Hi & NZ & Z) Ri HB ST L EL HB' ST' L' EL' Hm Hm'.
  assert (ES : size M' = size M) by (unfold size; destruct NR as [[-> _] _]; reflexivity).
  assert (Ri' : supports_of r U i = false) by (rewrite (unprescribed _ _ _ UZ i Hi); exact Ri).
  assert (N : exists i, (i < size M)%nat /\ ~ F i == 2 * R i) by (apply (loaded _ _ _ _ _ _ _ i L Hi); assumption).
  assert (N' : exists i, (i < size M')%nat /\ ~ F i == 2 * R' i) by (rewrite ES in *; apply (loaded _ _ _ _ _ _ _ i L' Hi); assumption).
  destruct (C149_displacements_partial solve solve' M M' z z' s s' F U r eps K K' V V' R R' mi mi' SO SO' SM SM' NR E0 E1 HB ST L EL HB' ST' L' EL' N N' Hm Hm')
    as (o & v & o' & v' & A1 & _ & A2 & B1 & _ & B2 & _ & PT).
  exists o, v, o', v'. do 4 (split; [assumption|]).
  destruct (C129_analysis solve M s F U r K V R mi SO HB ST L EL N Hm) as (o2 & v2 & q2 & X1 & _ & X3 & X4 & _).
  assert (EO : o2 = o) by congruence. subst o2. assert (EV : v2 = v) by congruence. subst v2.
  assert (UZs : forall k, (k < size M)%nat -> supports_of r U k = r k) by (intros k Hk; apply (unprescribed _ _ _ UZ k Hk)).
  destruct (state_free _ _ _ _ _ _ _ UZ L) as [V0 VF].
  assert (EW : energy (size M) K v == F i * v i).
  { rewrite (energy_same _ K v V X4). unfold energy. rewrite (balanced_work _ K F V r V V0 VF), (dot_single _ F V i Hi Z), (X4 i Hi). reflexivity. }
  assert (PT' : forall j g, (j < size M)%nat -> (forall k, (k < size M)%nat -> r k = true -> g k == 0) ->
      (forall k, (k < size M)%nat -> r k = false -> mulv (size M) K g k == (if Nat.eqb k j then 1 else 0)) ->
      (1 - eps) * (1 - eps) * ((v' j - v j) * (v' j - v j)) <= eps * eps * (g j * (F i * v i))).
  { intros j g Hj GZ GU. rewrite <- EW. apply (PT j g Hj); [intros k Hk Zk; apply GZ; [exact Hk|rewrite <- UZs; assumption]|intros k Hk Zk; apply GU; [exact Hk|rewrite <- UZs; assumption]]. }
  split; [|exact PT'].
  (* the unit load at i: the loads divided by F i *)
  specialize (PT' i (fun k => / F i * V k) Hi).
  assert (H1 : forall k, (k < size M)%nat -> r k = true -> / F i * V k == 0) by (intros k Hk Zk; rewrite (V0 k Hk Zk); ring).
  assert (H2 : forall k, (k < size M)%nat -> r k = false -> mulv (size M) K (fun k => / F i * V k) k == (if Nat.eqb k i then 1 else 0)).
  { intros k Hk Zk. rewrite mulv_scale, (VF k Hk Zk). destruct (Nat.eqb_spec k i) as [->|Nk]; [field; exact NZ|rewrite (Z k Hk Nk); ring]. }
  specialize (PT' H1 H2). cbn beta in PT'. rewrite <- (X4 i Hi) in PT'. assert (EF : / F i * v i * (F i * v i) == v i * v i) by (field; exact NZ). rewrite EF in PT'.
  apply square_abs; [apply Qmult_le_0_compat; [lra|apply Qabs_nonneg]|apply Qmult_le_0_compat; [lra|apply Qabs_nonneg]|].
  assert (S1 : forall y, Qabs y * Qabs y == y * y) by (intros y; rewrite <- Qabs_Qmult; apply Qabs_pos; apply square_nonneg).
  assert (T1 : (1 - eps) * Qabs (v' i - v i) * ((1 - eps) * Qabs (v' i - v i)) == (1 - eps) * (1 - eps) * ((v' i - v i) * (v' i - v i))) by (rewrite <- (S1 (v' i - v i)); ring).
  assert (T2 : eps * Qabs (v i) * (eps * Qabs (v i)) == eps * eps * (v i * v i)) by (rewrite <- (S1 (v i)); ring). rewrite T1, T2. exact PT'.
Qed.
Print Assumptions C149_under_the_load_partial.

(** Prescribed displacements without loads: the work of the reactions of either pile is at most [1 + eps] times that of the other;
    when one displacement only is not zero, so is its reaction. *)
Theorem C149_reactions_partial : forall solve solve' M M' z z' s s' F U r eps K K' V V' R R' max_iter max_iter', solver_ok solve -> solver_ok solve' ->
  sound_model M z -> sound_model M' z' -> near eps M M' s s' -> 0 <= eps -> (forall i, (i < size M)%nat -> F i == 0) ->
  build M zero Initial = Ok K -> stable (size M) K (supports_of r U) -> linear_state (size M) K F U (supports_of r U) V R -> elastic M s V ->
  build M' zero Initial = Ok K' -> stable (size M') K' (supports_of r U) -> linear_state (size M') K' F U (supports_of r U) V' R' -> elastic M' s' V' ->
  (exists i, (i < size M)%nat /\ ~ R i == 0) -> (exists i, (i < size M')%nat /\ ~ R' i == 0) -> (1 <= max_iter)%nat -> (1 <= max_iter')%nat ->
  exists o q o' q', winkler_model solve M F U r max_iter = Ok o /\ o_Q o = Some q /\ winkler_model solve' M' F U r max_iter' = Ok o' /\ o_Q o' = Some q' /\
    0 <= dot (size M) q U /\ dot (size M) q' U <= (1 + eps) * dot (size M) q U /\ dot (size M) q U <= (1 + eps) * dot (size M) q' U /\
    forall i, single (size M) i U -> Qabs (q' i) <= (1 + eps) * Qabs (q i) /\ Qabs (q i) <= (1 + eps) * Qabs (q' i) /\ 0 <= q i * q' i.
Proof.
  intros solve solve' M M' z z' s s' F U r eps K K' V V' R R' mi mi' SO SO' SM SM' NR E0 FZ HB ST L EL HB' ST' L' EL' (i0 & Hi0 & N0) (i1 & Hi1 & N1) Hm Hm'.
  assert (ES : size M' = size M) by (unfold size; destruct NR as [[-> _] _]; reflexivity).
  assert (N : exists i, (i < size M)%nat /\ ~ F i == 2 * R i) by (exists i0; split; [exact Hi0|]; rewrite (FZ i0 Hi0); intros X; apply N0; lra).
  assert (N' : exists i, (i < size M')%nat /\ ~ F i == 2 * R' i) by (exists i1; split; [exact Hi1|]; rewrite ES in Hi1; rewrite (FZ i1 Hi1); intros X; apply N1; lra).
  destruct (C129_analysis solve M s F U r K V R mi SO HB ST L EL N Hm) as (o & v & q & A1 & A2 & A3 & A4 & A5 & A6).
  destruct (C129_analysis solve' M' s' F U r K' V' R' mi' SO' HB' ST' L' EL' N' Hm') as (o' & v' & q' & B1 & B2 & B3 & B4 & B5 & B6).
  exists o, q, o', q'. do 4 (split; [assumption|]). rewrite ES in *. destruct L as (L1 & L2 & L3). destruct L' as (L1' & L2' & L3').
  assert (X0 : elastic M s zero /\ elastic M' s' zero) by (split; eapply elastic_rest; eassumption). destruct X0 as [X0 X0'].
  pose proof (system_symmetric M z zero Initial K SM HB) as SY. pose proof (system_psd M z zero Initial K SM HB) as PS.
  pose proof (system_symmetric M' z' zero Initial K' SM' HB') as SY'. pose proof (system_psd M' z' zero Initial K' SM' HB') as PS'. rewrite ES in SY', PS'.
  assert (LP : forall (KK : mat) (a b RR : vec), symmetric (size M) KK -> psd (size M) KK -> (forall i, (i < size M)%nat -> mulv (size M) KK a i == F i + RR i) ->
     (forall i, (i < size M)%nat -> supports_of r U i = false -> RR i == 0) -> (forall i, (i < size M)%nat -> supports_of r U i = true -> b i == a i) -> energy (size M) KK a <= energy (size M) KK b).
  { intros KK a b RR SYK PK H1 H2 H3. pose proof (least_potential (size M) KK F a RR (supports_of r U) b SYK PK H1 H2 H3) as LE. pose proof (PK (fun i => b i - a i)) as P. unfold potential in LE.
    assert (ZF : forall w, dot (size M) F w == 0) by (intros w; apply sum_zero; intros i Hi; rewrite (FZ i Hi); ring). rewrite !ZF in LE. lra. }
  assert (WK : forall (KK : mat) (a RR : vec), (forall i, (i < size M)%nat -> mulv (size M) KK a i == F i + RR i) -> (forall i, (i < size M)%nat -> supports_of r U i = false -> RR i == 0) ->
     (forall i, (i < size M)%nat -> supports_of r U i = true -> a i == U i) -> energy (size M) KK a == dot (size M) RR U).
  { intros KK a RR H1 H2 H3. unfold energy, dot. apply sum_ext. intros i Hi. rewrite (H1 i Hi), (FZ i Hi). destruct (supports_of r U i) eqn:E; [rewrite (H3 i Hi E); ring|rewrite (H2 i Hi E); ring]. }
  assert (SE : forall i, (i < size M)%nat -> supports_of r U i = true -> V' i == V i) by (intros i Hi Z; rewrite (L3 i Hi Z), (L3' i Hi Z); reflexivity).
  assert (SE' : forall i, (i < size M)%nat -> supports_of r U i = true -> V i == V' i) by (intros i Hi Z; rewrite (L3 i Hi Z), (L3' i Hi Z); reflexivity).
  pose proof (LP K V V' R SY PS L1 L2 SE) as P1. pose proof (LP K' V' V R' SY' PS' L1' L2' SE') as P2.
  pose proof (WK K V R L1 L2 L3) as W1. pose proof (WK K' V' R' L1' L2' L3') as W2.
  pose proof (proj2 (near_energy eps M M' z z' s s' zero zero Initial Initial K K' V E0 SM SM' NR X0 X0' HB HB')) as G1.
  destruct NR as [NR1 NR2].
  pose proof (upto_energy (1 + eps) M M' z z' s s' zero zero Initial Initial K K' V' ltac:(lra) SM SM' NR1 X0 X0' HB HB') as G2.
  pose proof (PS V) as PV. pose proof (PS' V') as PV'.
  assert (D : dot (size M) q U == dot (size M) R U) by (unfold dot; apply sum_ext; intros i Hi; rewrite (A6 i Hi); reflexivity).
  assert (D' : dot (size M) q' U == dot (size M) R' U) by (unfold dot; apply sum_ext; intros i Hi; rewrite (B6 i Hi); reflexivity).
  assert (C1 : 0 <= dot (size M) q U) by (rewrite D, <- W1; exact PV). assert (C1' : 0 <= dot (size M) q' U) by (rewrite D', <- W2; exact PV').
  assert (C2 : dot (size M) q' U <= (1 + eps) * dot (size M) q U) by (rewrite D, D', <- W1, <- W2; lra).
  assert (C3 : dot (size M) q U <= (1 + eps) * dot (size M) q' U) by (rewrite D, D', <- W1, <- W2; lra).
  do 3 (split; [assumption|]). intros i (Hi & NU & Z).
  rewrite !(dot_sym _ q U), !(dot_sym _ q' U), ?(dot_single _ U q i Hi Z), ?(dot_single _ U q' i Hi Z) in *.
  assert (S1 : forall y, Qabs (U i) * Qabs y == Qabs (U i * y)) by (intros; symmetry; apply Qabs_Qmult).
  assert (PU : 0 < Qabs (U i)) by (pose proof (Qabs_nonneg (U i)) as X; destruct (Qle_lt_or_eq _ _ X) as [Y|Y]; [exact Y|exfalso; apply NU; destruct (Qlt_le_dec (U i) 0); [rewrite Qabs_neg in Y by lra; lra|rewrite Qabs_pos in Y by lra; lra]]).
  assert (H1 : Qabs (U i) * Qabs (q' i) <= Qabs (U i) * ((1 + eps) * Qabs (q i))).
  { rewrite Qmult_assoc, (Qmult_comm (Qabs (U i)) (1 + eps)), <- Qmult_assoc, !S1, !Qabs_pos by assumption. exact C2. }
  assert (H2 : Qabs (U i) * Qabs (q i) <= Qabs (U i) * ((1 + eps) * Qabs (q' i))).
  { rewrite Qmult_assoc, (Qmult_comm (Qabs (U i)) (1 + eps)), <- Qmult_assoc, !S1, !Qabs_pos by assumption. exact C3. }
  split; [apply (Qmult_le_l _ _ _ PU); exact H1|]. split; [apply (Qmult_le_l _ _ _ PU); exact H2|].
  assert (UU : 0 < U i * U i) by (destruct (Qlt_le_dec (U i) 0); [nra|assert (0 < U i) by (destruct (Qle_lt_or_eq _ _ q0) as [Y|Y]; [exact Y|exfalso; apply NU; lra]); nra]).
  apply (Qmult_le_l _ _ (U i * U i) UU). assert (X : 0 <= U i * q i * (U i * q' i)) by (apply Qmult_le_0_compat; assumption). lra.
Qed.
Print Assumptions C149_reactions_partial.

(** Small loads, curves of any shape: the points of the second model's curves are those of the first up to the relative error [d]. *)
Theorem C149_points_partial : forall solve solve' M M' z z' F U r d K K' V V' R R' i, solver_ok solve -> solver_ok solve' ->
  sound_model M z -> sound_model M' z' -> regular M -> regular M' -> close_soil d M M' -> 0 <= d -> d < 1#3 ->
  (forall i, (i < size M)%nat -> U i == 0) -> single (size M) i F -> r i = false ->
  build M zero Initial = Ok K -> stable (size M) K (supports_of r U) -> linear_state (size M) K F U (supports_of r U) V R -> either_way M V ->
  build M' zero Initial = Ok K' -> stable (size M') K' (supports_of r U) -> linear_state (size M') K' F U (supports_of r U) V' R' -> either_way M' V' ->
  exists t0, 0 < t0 /\ forall t, 0 < t -> t <= t0 -> forall max_iter max_iter', (1 <= max_iter)%nat -> (1 <= max_iter')%nat ->
  exists o v o' v', winkler_model solve M (fun i => t * F i) U r max_iter = Ok o /\ o_d o = Some v /\
    winkler_model solve' M' (fun i => t * F i) U r max_iter' = Ok o' /\ o_d o' = Some v' /\ (1 - 3 * d) * Qabs (v' i - v i) <= 2 * d * Qabs (v i).
Proof.
  intros solve solve' M M' z z' F U r d K K' V V' R R' i SO SO' SM SM' RG RG' CS D0 D1 UZ (Hi & NZ & Z) Ri HB ST L SE HB' ST' L' SE'.
  assert (ES : size M' = size M) by (unfold size; destruct CS as [-> _]; reflexivity).
  pose proof (close_near d M M' z z' D0 ltac:(lra) SM SM' RG RG' CS) as NR.
  destruct (eventually_and _ _ (small_elastic M V RG SE) (small_elastic M' V' RG' SE')) as (t0 & T0 & EL). exists t0. split; [exact T0|].
  intros t T Le mi mi' Hm Hm'. destruct (EL t T Le) as [E1 E2].
  assert (LS : forall n Kx s Vx Rx, (forall i, (i < n)%nat -> U i == 0) -> linear_state n Kx F U s Vx Rx -> linear_state n Kx (fun i => t * F i) U s (fun i => t * Vx i) (fun i => t * Rx i)).
  { intros n Kx s Vx Rx UZ' (A & B & C). split; [|split].
    - intros j Hj. rewrite mulv_scale, (A j Hj). ring.
    - intros j Hj X. rewrite (B j Hj X). ring.
    - intros j Hj X. rewrite (C j Hj X), (UZ' j Hj). ring. }
  pose proof (LS _ _ _ _ _ UZ L) as L1. assert (UZ' : forall i, (i < size M')%nat -> U i == 0) by (rewrite ES; exact UZ). pose proof (LS _ _ _ _ _ UZ' L') as L2.
  assert (SI : single (size M) i (fun i => t * F i)).
  { split; [exact Hi|]. split; [intros X; apply Qmult_integral in X; destruct X; lra|]. intros j Hj Nj. rewrite (Z j Hj Nj). ring. }
  assert (P0 : 0 <= error_of d) by (unfold error_of; apply Qle_shift_div_l; lra). assert (P1 : error_of d < 1) by (unfold error_of; apply Qlt_shift_div_r; lra).
  destruct (C149_under_the_load_partial solve solve' M M' z z' _ _ (fun i => t * F i) U r (error_of d) K K' _ _ _ _ mi mi' i SO SO' SM SM' NR P0 P1 UZ SI Ri HB ST L1 E1 HB' ST' L2 E2 Hm Hm')
    as (o & v & o' & v' & A1 & A2 & A3 & A4 & A5 & _).
  exists o, v, o', v'. do 4 (split; [assumption|]).
  assert (X : (1 - d) * ((1 - error_of d) * Qabs (v' i - v i)) <= (1 - d) * (error_of d * Qabs (v i))) by (apply Qmult_le_l; [lra|exact A5]).
  assert (Y1 : (1 - d) * ((1 - error_of d) * Qabs (v' i - v i)) == (1 - 3 * d) * Qabs (v' i - v i)) by (unfold error_of; field; lra).
  assert (Y2 : (1 - d) * (error_of d * Qabs (v i)) == 2 * d * Qabs (v i)) by (unfold error_of; field; lra). rewrite Y1, Y2 in X. exact X.
Qed.
Print Assumptions C149_points_partial.

(** A pile with a lateral load on its head, and the same with a spring at the tip that is one per cent stronger: the hypotheses
    are met, and the two displacements differ. *)
Example C149_case : exists K K', build soil_e zero Initial = Ok K /\ stable (size soil_e) K (supports_of free zero) /\
  linear_state (size soil_e) K head_h zero (supports_of free zero) moved_e zero /\ elastic soil_e (first_slopes soil_e) moved_e /\
  build soil_n zero Initial = Ok K' /\ stable (size soil_n) K' (supports_of free zero) /\
  linear_state (size soil_n) K' head_h zero (supports_of free zero) moved_n zero /\ elastic soil_n (first_slopes soil_n) moved_n /\
  close_soil (1#100) soil_e soil_n /\ near (error_of (1#100)) soil_e soil_n (first_slopes soil_e) (first_slopes soil_n) /\ error_of (1#100) < 1 /\
  single (size soil_e) 1 head_h /\ regular soil_e /\ regular soil_n /\ settling soil_e moved_e /\ settling soil_n moved_n /\ moved_n 1%nat < moved_e 1%nat.
Proof.
  destruct (stable_both (supports_of free zero)) as (K & K' & B & B' & ST & ST'). exists K, K'.
  assert (S1 : small6 moved_e = true) by (vm_compute; reflexivity). assert (S2 : small6 moved_n = true) by (vm_compute; reflexivity).
  split; [exact B|]. split; [exact ST|]. split; [apply (state_of soil_e); [vm_compute; reflexivity|exact B|reflexivity|vm_compute; reflexivity|vm_compute; reflexivity]|].
  split; [apply soil_e_elastic, small6_ok; exact S1|]. split; [exact B'|]. split; [exact ST'|].
  split; [apply (state_of soil_n); [vm_compute; reflexivity|exact B'|reflexivity|vm_compute; reflexivity|vm_compute; reflexivity]|].
  split; [apply soil_n_elastic, small6_ok; exact S2|]. split; [exact n_close|].
  split; [apply (close_near _ _ _ z0 z0); [lra|lra|exact soil_e_sound|exact soil_n_sound|exact soil_e_regular|exact soil_n_regular|exact n_close]|]. split; [reflexivity|].
  split; [split; [cbn; lia|split; [discriminate|]]; intros j Hj N; change (size soil_e) with 6%nat in Hj; do 6 (destruct j as [|j]; [first [contradiction|reflexivity]|]); lia|].
  split; [exact soil_e_regular|]. split; [exact soil_n_regular|]. split; [intros a Ha; apply (small6_ok _ S1 a Ha)|]. split; [intros a Ha; apply (small6_ok _ S2 a Ha)|reflexivity].
Qed.

(** The head of both piles pushed by two millimetres: the reactions are 5.9959 and 5.9985. *)
Example C149_reactions_case : exists K K', build soil_e zero Initial = Ok K /\ stable (size soil_e) K (supports_of free head_2) /\
  linear_state (size soil_e) K zero head_2 (supports_of free head_2) pushed_e held_e /\ elastic soil_e (first_slopes soil_e) pushed_e /\
  build soil_n zero Initial = Ok K' /\ stable (size soil_n) K' (supports_of free head_2) /\
  linear_state (size soil_n) K' zero head_2 (supports_of free head_2) pushed_n held_n /\ elastic soil_n (first_slopes soil_n) pushed_n /\
  single (size soil_e) 1 head_2 /\ ~ held_e 1%nat == 0 /\ held_e 1%nat < held_n 1%nat.
Proof.
  destruct (stable_both (supports_of free head_2)) as (K & K' & B & B' & ST & ST'). exists K, K'.
  split; [exact B|]. split; [exact ST|]. split; [apply (state_of soil_e); [vm_compute; reflexivity|exact B|reflexivity|vm_compute; reflexivity|vm_compute; reflexivity]|].
  split; [apply soil_e_elastic, small6_ok; vm_compute; reflexivity|]. split; [exact B'|]. split; [exact ST'|].
  split; [apply (state_of soil_n); [vm_compute; reflexivity|exact B'|reflexivity|vm_compute; reflexivity|vm_compute; reflexivity]|].
  split; [apply soil_n_elastic, small6_ok; vm_compute; reflexivity|].
  split; [split; [cbn; lia|split; [discriminate|]]; intros j Hj N; change (size soil_e) with 6%nat in Hj; do 6 (destruct j as [|j]; [first [contradiction|reflexivity]|]); lia|].
  split; [discriminate|reflexivity].
Qed.
