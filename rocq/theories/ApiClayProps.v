(** C46: API clay, Matlock and modified Matlock p-y curves. *)
From Coq Require Import List Reals Lra Lia Psatz.
From Verif Require Import Base ConicModel ConicSpec ConicProofs PisaModel PisaProofs ApiSandModel ApiClayModel ApiClaySpec ApiClayProofs.
Import ListNotations.
Local Open Scope R_scope.

(** What is claimed of a curve with cyclic peak [f] reached at [b] times y50.  [reach] is the multiple of
    y50 from which the requested extent is honoured. *)
Definition clay_claim (f b : R) (reach : R) (n : nat) (sig X Su eps50 D J : R) (kind : loading) (ymax : R) (r : res (list R * list R)) : Prop :=
  let y50 := 2.5 * eps50 * D in
  let ext := if Req_EM_T ymax 0 then 16 * y50 else ymax in
  let Pmax := Rmin (9 * Su * D) ((3 * Su + sig) * D + J * Su * X) in
  exists Xr y p, r = Ok (y, p) /\
    (X = 0 \/ Su = 0 -> Xr = 2.5 * D) /\ (X <> 0 -> Su <> 0 -> Xr = Rmax (6 * D / (sig / X * D / Su + J)) (2.5 * D)) /\
    discretised (match kind with Static => matlock_static | Cyclic => matlock_cyclic f b (X / Xr) end) y50 Pmax n y p /\
    In ext y /\ (reach * y50 <= ext -> last y 0 = ext /\ forall v, In v y -> v <= ext) /\
    match kind with
    | Static => nondecreasing p /\ (forall v, In v p -> 0 <= v /\ v <= Pmax) /\ (8 * y50 < ext -> last p 0 = Pmax)
    | Cyclic => (forall v, In v p -> 0 <= v /\ v <= f * Pmax) /\ (Xr < X -> nondecreasing p) /\ (15 * y50 < ext -> last p 0 = f * Pmax * Rmin 1 (X / Xr))
    end.

Lemma claim_of : forall f b w grid added n sig X Su eps50 D J kind ymax reach,
  0 < eps50 -> 0 < D -> 0 <= sig -> 0 <= X -> 0 <= Su -> 0 < J -> 0 <= ymax -> 0 < b -> 0 < w -> b + w = 15 -> rise b <= f -> (0 < n)%nat ->
  let y50 := clay_y50 eps50 D in let ext := clay_ymax y50 ymax in
  In 0 (grid y50 ext) -> In ext (grid y50 ext) -> (0 < y50 -> 0 <= ext -> forall v, In v (grid y50 ext) -> 0 <= v) ->
  (length (grid y50 ext) <= n)%nat -> (0 < y50 -> 0 <= ext -> forall i, 0 <= added y50 ext i) -> (0 < y50 -> reach * y50 <= ext -> forall i, added y50 ext i <= ext) ->
  clay_claim f b reach n sig X Su eps50 D J kind ymax
    (bind (clay_Xr sig X Su D J) (fun Xr => bind (mapM (clay_p f b w kind (clay_Pmax sig X Su D J) y50 X Xr) (clay_grid ext (grid y50 ext) (added y50 ext) n))
       (fun p => Ok (clay_grid ext (grid y50 ext) (added y50 ext) n, p)))).
Proof.
  intros f b w grid added n sig X Su eps50 D J kind ymax reach He HD Hs HX HS HJ Hm Hb Hw E15 HF N0 y50 ext I0 IY G0 LN A0 A1.
  assert (Hy : 0 < y50) by (unfold y50, clay_y50; apply Rmult_lt_0_compat; [apply Rmult_lt_0_compat; lra|lra]).
  assert (HE : 0 <= ext) by (unfold ext, clay_ymax; destruct (Req_EM_T ymax 0); lra).
  specialize (G0 Hy HE). specialize (A0 Hy HE).
  destruct (clay_Xr_ok sig X Su D J Hs HX HS HD HJ) as (Xr & EX & LX). assert (HXr : 0 < Xr) by lra.
  pose proof (Pmax_nonneg sig X Su D J Hs HX HS HD HJ) as HP. fold y50 in A0.
  unfold clay_claim. fold (clay_y50 eps50 D). fold y50. fold (clay_ymax y50 ymax). fold ext. fold (clay_Pmax sig X Su D J). cbv zeta.
  rewrite EX. cbn [bind]. rewrite (curve_ok f b w kind _ y50 X Xr ext _ _ n Hy HXr Hb Hw E15). cbn [bind].
  exists Xr. do 2 eexists. split; [reflexivity|]. split; [|split; [|split; [|split; [|split]]]].
  - intros O. unfold clay_Xr in EX. destruct (Req_EM_T X 0); [congruence|]. destruct (Req_EM_T Su 0); [congruence|]. destruct O; contradiction.
  - intros OX OS. unfold clay_Xr in EX. destruct (Req_EM_T X 0); [contradiction|]. destruct (Req_EM_T Su 0); [contradiction|].
    unfold nonzero in EX. destruct (Req_EM_T (sig / X * D / Su + J) 0); [discriminate|congruence].
  - pose proof (curve_discretised f b kind (clay_Pmax sig X Su D J) y50 X Xr ext (grid y50 ext) (added y50 ext) n Hy Hb I0 HE G0 A0 LN N0) as DI. destruct kind; exact DI.
  - apply grid_end; auto.
  - intros R1. apply grid_last; auto.
  - destruct kind.
    + apply (curve_static f b Static _ y50 X Xr ext); auto.
    + apply (curve_cyclic f b w Cyclic _ y50 X Xr ext); auto.
Qed.

Ltac clay_points := intros; cbv beta in *; match goal with I : In _ _ |- _ => simpl in I; repeat (destruct I as [<-|I]); try contradiction; lra end.

(** Every parameter set and every outcome of the random draws, for the three published curves. *)
Theorem C46_api_clay_partial : forall u sig X Su eps50 D J kind ymax m, (forall i, 0 <= u i < 1) ->
  0 < eps50 -> 0 < D -> 0 <= sig -> 0 <= X -> 0 <= Su -> 0 < J -> 0 <= ymax ->
  clay_claim 0.7185 3 15 (Nat.max 8 m) sig X Su eps50 D J kind ymax (api_clay u sig X Su eps50 D J kind ymax m).
Proof.
  intros u sig X Su eps50 D J kind ymax m HU He HD Hs HX HS HJ Hm.
  apply (claim_of 0.7185 3 12 (fun y50 ymax => [0; 0.1 * y50; 0.3 * y50; 1 * y50; 3 * y50; 8 * y50; 15 * y50; ymax]) (fun y50 ymax i => 15 * y50 + u i * (ymax - 15 * y50)) (Nat.max 8 m)); auto; try lra; try lia; try (cbn [In]; tauto); try (cbn [length]; lia).
  - apply rise_3.
  - clay_points.
  - intros H1 H2 i. pose proof (HU i). nra.
  - intros H1 H2 i. pose proof (HU i). nra.
Qed.

Theorem C46_matlock_partial : forall u sig X Su eps50 D J kind ymax m, (forall i, 0 <= u i < 1) ->
  0 < eps50 -> 0 < D -> 0 <= sig -> 0 <= X -> 0 <= Su -> 0 < J -> 0 <= ymax ->
  clay_claim 0.7185 3 8 (Nat.max 9 m) sig X Su eps50 D J kind ymax (matlock_1970 u sig X Su eps50 D J kind ymax m).
Proof.
  intros u sig X Su eps50 D J kind ymax m HU He HD Hs HX HS HJ Hm.
  apply (claim_of 0.7185 3 12 (fun y50 ymax => [0; 0.001 * y50; 0.01 * y50; 0.10 * y50; 1 * y50; 3 * y50; 8 * y50; 15 * y50; ymax]) (fun y50 ymax i => 0.01 * y50 + u i * (8 - 0.01) * y50) (Nat.max 9 m)); auto; try lra; try lia; try (cbn [In]; tauto); try (cbn [length]; lia).
  - apply rise_3.
  - clay_points.
  - intros H1 H2 i. pose proof (HU i). nra.
  - intros H1 H2 i. pose proof (HU i). nra.
Qed.

Theorem C46_modified_matlock_partial : forall u sig X Su eps50 D J kind ymax m, (forall i, 0 <= u i < 1) ->
  0 < eps50 -> 0 < D -> 0 <= sig -> 0 <= X -> 0 <= Su -> 0 < J -> 0 <= ymax ->
  clay_claim 0.5 1 8 (Nat.max 8 m) sig X Su eps50 D J kind ymax (modified_Matlock u sig X Su eps50 D J kind ymax m).
Proof.
  intros u sig X Su eps50 D J kind ymax m HU He HD Hs HX HS HJ Hm.
  apply (claim_of 0.5 1 14 (fun y50 ymax => [0; 0.01 * y50; 0.10 * y50; 1 * y50; 3 * y50; 8 * y50; 15 * y50; ymax]) (fun y50 ymax i => 0.01 * y50 + u i * (8 - 0.01) * y50) (Nat.max 8 m)); auto; try lra; try lia; try (cbn [In]; tauto); try (cbn [length]; lia).
  - rewrite rise_1. lra.
  - clay_points.
  - intros H1 H2 i. pose proof (HU i). nra.
  - intros H1 H2 i. pose proof (HU i). nra.
Qed.

(** The ultimate resistance is the bearing factor, 9 at most, times strength and width. *)
Theorem C46_ultimate : forall sig X Su D J, 0 < Su -> 0 < D -> clay_Pmax sig X Su D J = clay_Nc sig X Su D J * (Su * D).
Proof. intros. apply Pmax_Nc; auto. Qed.

(** Past the peak, cyclic curves above the transition depth only soften. *)
Theorem C46_cyclic_softens : forall u sig X Su eps50 D J ymax m Xr y p i j, (forall i, 0 <= u i < 1) ->
  0 < eps50 -> 0 < D -> 0 <= sig -> 0 <= X -> 0 <= Su -> 0 < J -> 0 <= ymax ->
  clay_Xr sig X Su D J = Ok Xr -> X <= Xr -> api_clay u sig X Su eps50 D J Cyclic ymax m = Ok (y, p) ->
  (i <= j)%nat -> (j < length y)%nat -> 3 * (2.5 * eps50 * D) < nth i y 0 -> nth j p 0 <= nth i p 0.
Proof.
  intros u sig X Su eps50 D J ymax m Xr y p i j HU He HD Hs HX HS HJ Hm EX LX E Lij Lj B3.
  destruct (C46_api_clay_partial u sig X Su eps50 D J Cyclic ymax m HU He HD Hs HX HS HJ Hm) as (Xr' & y' & p' & E' & X1 & X2 & DI & _).
  rewrite E in E'. assert (y' = y /\ p' = p) by (split; congruence). destruct H; subst y' p'.
  destruct (clay_Xr_ok sig X Su D J Hs HX HS HD HJ) as (Xr0 & EX0 & LX0). assert (Xr0 = Xr) by congruence. subst Xr0.
  assert (Xr' = Xr). { unfold clay_Xr, nonzero in EX. destruct (Req_EM_T X 0); [rewrite X1 by auto; congruence|]. destruct (Req_EM_T Su 0); [rewrite X1 by auto; congruence|].
    rewrite X2 by auto. destruct (Req_EM_T (sig / X * D / Su + J) 0); [discriminate|congruence]. }
  subst Xr'. pose proof (d_length _ _ _ _ _ _ DI) as LY. rewrite !(d_value _ _ _ _ _ _ DI) by lia.
  pose proof (Pmax_nonneg sig X Su D J Hs HX HS HD HJ) as HP. unfold clay_Pmax in HP. apply Rmult_le_compat_l; auto.
  assert (Hy : 0 < 2.5 * eps50 * D) by (apply Rmult_lt_0_compat; [apply Rmult_lt_0_compat; lra|lra]).
  assert (Z : 0 <= X / Xr) by (apply Rmult_le_pos; auto; left; apply Rinv_0_lt_compat; lra).
  assert (Z1 : X / Xr <= 1) by (apply (Rmult_le_reg_r Xr); [lra|]; unfold Rdiv; rewrite Rmult_assoc, Rinv_l by lra; lra).
  apply cyclic_soft; auto; try lra.
  - apply (proj1 (div_lt 3 _ _ Hy)). exact B3.
  - apply frac_le; auto. apply (d_sorted _ _ _ _ _ _ DI); lia.
Qed.

(** The requested extent is exceeded, whatever the random draws, when it is less than 15 y50. *)
Theorem C46_extent_refuted : forall u sig X Su eps50 D J kind ymax m, (forall i, 0 <= u i < 1) ->
  0 < eps50 -> 0 < D -> 0 <= sig -> 0 <= X -> 0 <= Su -> 0 < J -> 0 < ymax -> ymax < 15 * (2.5 * eps50 * D) ->
  exists y p, api_clay u sig X Su eps50 D J kind ymax m = Ok (y, p) /\ ymax < last y 0.
Proof.
  intros u sig X Su eps50 D J kind ymax m HU He HD Hs HX HS HJ Hm LT.
  destruct (C46_api_clay_partial u sig X Su eps50 D J kind ymax m HU He HD Hs HX HS HJ ltac:(lra)) as (Xr & y & p & E & _ & _ & DI & _).
  exists y, p. split; [exact E|]. pose proof (HU 0%nat) as U0.
  assert (EY : y = clay_grid ymax [0; 0.1 * clay_y50 eps50 D; 0.3 * clay_y50 eps50 D; 1 * clay_y50 eps50 D; 3 * clay_y50 eps50 D; 8 * clay_y50 eps50 D; 15 * clay_y50 eps50 D; ymax]
     (fun i => 15 * clay_y50 eps50 D + u i * (ymax - 15 * clay_y50 eps50 D)) (Nat.max 8 m)).
  { unfold api_clay in E. destruct (clay_Xr sig X Su D J); [|discriminate]. cbn [bind] in E. unfold clay_ymax in E. destruct (Req_EM_T ymax 0); [lra|].
    cbv zeta in E. match type of E with bind ?r _ = _ => destruct r; [|discriminate] end. cbn [bind] in E. congruence. }
  apply (Rlt_le_trans _ (15 * clay_y50 eps50 D + u 0%nat * (ymax - 15 * clay_y50 eps50 D))); [unfold clay_y50; nra|].
  apply nd_last_ge; [exact (d_sorted _ _ _ _ _ _ DI)|]. rewrite EY. apply grid_in; [cbn [length]; lia|]. right. exists 0%nat. split; [|reflexivity].
  enough (length (filter (fun v => if Rle_dec v ymax then true else false) [0; 0.1 * clay_y50 eps50 D; 0.3 * clay_y50 eps50 D; 1 * clay_y50 eps50 D; 3 * clay_y50 eps50 D; 8 * clay_y50 eps50 D; 15 * clay_y50 eps50 D; ymax]%R) <= 7)%nat by lia.
  change ([0; 0.1 * clay_y50 eps50 D; 0.3 * clay_y50 eps50 D; 1 * clay_y50 eps50 D; 3 * clay_y50 eps50 D; 8 * clay_y50 eps50 D; 15 * clay_y50 eps50 D; ymax])
    with ([0; 0.1 * clay_y50 eps50 D; 0.3 * clay_y50 eps50 D; 1 * clay_y50 eps50 D; 3 * clay_y50 eps50 D; 8 * clay_y50 eps50 D] ++ [15 * clay_y50 eps50 D] ++ [ymax]).
  rewrite !filter_app, !app_length.
  assert (F15 : filter (fun v => if Rle_dec v ymax then true else false) [15 * clay_y50 eps50 D] = []).
  { simpl. destruct (Rle_dec (15 * clay_y50 eps50 D) ymax); [unfold clay_y50 in r; lra|reflexivity]. }
  rewrite F15. pose proof (filter_le (fun v => if Rle_dec v ymax then true else false) [0; 0.1 * clay_y50 eps50 D; 0.3 * clay_y50 eps50 D; 1 * clay_y50 eps50 D; 3 * clay_y50 eps50 D; 8 * clay_y50 eps50 D]) as F1.
  pose proof (filter_le (fun v => if Rle_dec v ymax then true else false) [ymax]) as F2. simpl length in F1, F2 |- *. lia.
Qed.

Definition clay_case := api_clay (fun _ => 1/2) 50 5 60 0.01 5 0.5.
Example C46_static_case : exists y p, clay_case Static 0 20 = Ok (y, p) /\ length p = 20%nat /\ nondecreasing p /\ last y 0 = 16 * (2.5 * 0.01 * 5) /\ last p 0 = 1300.
Proof.
  destruct (C46_api_clay_partial (fun _ => 1/2) 50 5 60 0.01 5 0.5 Static 0 20) as (Xr & y & p & E & _ & _ & DI & _ & LY & ND & _ & LP); try lra; try (intros; lra).
  exists y, p. destruct (Req_EM_T 0 0); [|lra]. split; [exact E|]. split; [exact (d_length_p _ _ _ _ _ _ DI)|]. split; [exact ND|]. split; [apply LY; lra|].
  rewrite LP by lra. unfold Rmin. destruct (Rle_dec _ _); lra.
Qed.
(** At the surface the cyclic residual is nil. *)
Example C46_cyclic_case : exists y p, api_clay (fun _ => 1/2) 0 0 60 0.01 5 0.5 Cyclic 0 20 = Ok (y, p) /\ last p 0 = 0.
Proof.
  destruct (C46_api_clay_partial (fun _ => 1/2) 0 0 60 0.01 5 0.5 Cyclic 0 20) as (Xr & y & p & E & X1 & _ & _ & _ & _ & _ & _ & LP); try lra; try (intros; lra).
  exists y, p. split; [exact E|]. destruct (Req_EM_T 0 0); [|lra]. rewrite LP by lra. rewrite X1 by auto. replace (0 / (2.5 * 5)) with 0 by lra. rewrite (Rmin_right 1 0) by lra. apply Rmult_0_r.
Qed.
Example C46_extent_case : exists y p, clay_case Static 0.1 8 = Ok (y, p) /\ 0.1 < last y 0.
Proof. apply C46_extent_refuted; try lra. intros; lra. Qed.

Print Assumptions C46_api_clay_partial.
Print Assumptions C46_matlock_partial.
Print Assumptions C46_modified_matlock_partial.
Print Assumptions C46_ultimate.
Print Assumptions C46_cyclic_softens.
Print Assumptions C46_extent_refuted.
