(** The draws of random() in the curves of the soil models. *)
From Coq Require Import List Bool Arith ZArith QArith Qabs Reals Qreals Permutation Lia Lqa Lra.
From Verif Require Import Base PileModel StressModel SpringModel CreateModel ConicModel ConicSpec PisaModel ApiSandModel ApiClayModel ApiClaySpec ApiClayProofs AxialModel AxialSpec AxialProofs
  LateralModel LateralSpec LateralProofs StartProofs CapacityModel CapacitySpec CapacityProofs FullModel FullSpec FullProofs RandomSpec RandomProofs.
Import ListNotations.
Local Open Scope R_scope.

(** ** Curves of 15 points: t-z and Q-z *)
Lemma back_same : forall zs (added added' : nat -> R), length zs = 15%nat -> backbone_z zs added 15 = backbone_z zs added' 15.
Proof. intros zs a a' L. unfold backbone_z. rewrite L. reflexivity. Qed.

Lemma tz_same : forall d d' m a, fair d -> fair d' -> tz_curve d m a = tz_curve d' m a.
Proof.
  intros d d' m a F F'. unfold tz_curve. destruct (a_sig a) as [sig|]; [|reflexivity]. destruct (a_D a) as [D|]; [|reflexivity]. destruct (a_perim a) as [co|]; [|reflexivity]. destruct (a_perim_in a) as [ci|]; [|reflexivity].
  destruct (F m a) as [U A]. destruct (F' m a) as [U' A']. destruct (d m a) as [u idx]. destruct (d' m a) as [u' idx']. cbn [fst snd] in *. f_equal.
  destruct m as [c|s].
  - unfold clay_tz. destruct (at_depth _ _ _ _); cbn [bind]; [|reflexivity]. destruct (plug_factors _ _ _ _) as [[total tens]|]; cbn [bind]; [|reflexivity].
    unfold tz_api_clay. rewrite (clay_t_eq u _ _ 15 idx U A), (clay_t_eq u' _ _ 15 idx' U' A'). assert (Z : clay_backbone_z u 15 = clay_backbone_z u' 15) by (unfold clay_backbone_z; apply (back_same clay_zs); reflexivity). rewrite Z. reflexivity.
  - unfold sand_tz. destruct (at_depth _ _ _ _); cbn [bind]; [|reflexivity]. destruct (plug_factors _ _ _ _) as [[total tens]|]; cbn [bind]; [|reflexivity].
    unfold tz_api_sand. rewrite (sand_t_eq u _ 15 idx U A), (sand_t_eq u' _ 15 idx' U' A'). assert (Z : sand_backbone_z u 15 = sand_backbone_z u' 15) by (unfold sand_backbone_z; apply (back_same sand_zs); reflexivity). rewrite Z. reflexivity.
Qed.

Lemma qz_same : forall d d' ta fp m a, fair_tip d -> fair_tip d' -> qz_curve d ta fp m a = qz_curve d' ta fp m a.
Proof.
  intros d d' ta fp m a F F'. unfold qz_curve. destruct (a_sig a) as [sig|]; [|reflexivity]. destruct (a_D a) as [D|]; [|reflexivity].
  destruct (F m a) as [U A]. destruct (F' m a) as [U' A']. destruct (d m a) as [u idx]. destruct (d' m a) as [u' idx']. cbn [fst snd] in *. f_equal.
  assert (Z : tip_backbone_z u 15 = tip_backbone_z u' 15) by (unfold tip_backbone_z; apply (back_same tip_zs); reflexivity).
  destruct m as [c|s].
  - unfold clay_Qz. destruct (at_depth _ _ _ _); cbn [bind]; [|reflexivity]. unfold qz_api_clay. rewrite (tip_Q_eq u 15 idx U A), (tip_Q_eq u' 15 idx' U' A'), Z. reflexivity.
  - unfold sand_Qz. destruct (at_depth _ _ _ _); cbn [bind]; [|reflexivity]. unfold qz_api_sand. rewrite (tip_Q_eq u 15 idx U A), (tip_Q_eq u' 15 idx' U' A'), Z. reflexivity.
Qed.

(** ** m-t springs *)
Lemma mt_same : forall m u idx u' idx' q, (forall i, 0 <= u i < 1) -> (forall i, 0 <= u' i < 1) -> sorted_draw m u idx -> sorted_draw m u' idx' ->
  mt_spring_fct m u idx q 0 15 = mt_spring_fct m u' idx' q 0 15.
Proof.
  intros m u idx u' idx' q U U' A A'. destruct m; try reflexivity; cbn [sorted_draw] in A, A'; cbn [mt_spring_fct mt_curve].
  - unfold tz_api_sand. rewrite (sand_t_eq u _ 15 idx U A), (sand_t_eq u' _ 15 idx' U' A').
    assert (Z : sand_backbone_z u 15 = sand_backbone_z u' 15) by (unfold sand_backbone_z; apply (back_same sand_zs); reflexivity). rewrite Z. reflexivity.
  - unfold tz_api_clay. rewrite (clay_t_eq u _ _ 15 idx U A), (clay_t_eq u' _ _ 15 idx' U' A').
    assert (Z : clay_backbone_z u 15 = clay_backbone_z u' 15) by (unfold clay_backbone_z; apply (back_same clay_zs); reflexivity). rewrite Z. reflexivity.
  - unfold tz_api_clay. rewrite (clay_t_eq u _ _ 15 idx U A), (clay_t_eq u' _ _ 15 idx' U' A').
    assert (Z : clay_backbone_z u 15 = clay_backbone_z u' 15) by (unfold clay_backbone_z; apply (back_same clay_zs); reflexivity). rewrite Z. reflexivity.
Qed.

(** ** p-y springs of API clay *)
Lemma rinsert_low : forall a l, (forall x, In x l -> a <= x) -> rinsert a l = a :: l.
Proof. intros a [|b l] H; [reflexivity|]. cbn [rinsert]. destruct (Rle_dec a b) as [|N]; [reflexivity|]. exfalso. apply N, H. left. reflexivity. Qed.

Lemma rsort_low : forall h rest, nondecreasing h -> (forall a x, In a h -> In x rest -> a <= x) -> rsort (h ++ rest) = h ++ rsort rest.
Proof.
  induction h as [|a h IH]; intros rest N L; [reflexivity|]. cbn [app rsort]. rewrite IH; [|apply (nondecreasing_tl a); exact N|intros b x I J; apply L; [right; exact I|exact J]].
  apply rinsert_low. intros x I. apply in_app_or in I. destruct I as [I|I]; [apply (nondecreasing_hd a h); auto|]. apply (proj1 (rsort_in rest x)) in I. apply L; [left; reflexivity|exact I].
Qed.

Definition clay_head (y50 : R) : list R := [0; 0.1 * y50; 0.3 * y50; 1 * y50; 3 * y50; 8 * y50; 15 * y50].

Lemma clay_head_sorted : forall y50, 0 < y50 -> nondecreasing (clay_head y50).
Proof.
  intros y50 P i j L H. cbn [clay_head length] in H. unfold clay_head.
  do 7 (destruct i as [|i]; [do 7 (destruct j as [|j]; [cbn [nth]; try lra; lia|]); lia|]). lia.
Qed.

Definition clay_tail (u : nat -> R) (y50 : R) : list R := rsort (16 * y50 :: map (fun i => 15 * y50 + u i * (16 * y50 - 15 * y50)) (seq 0 7)).
Lemma clay_tail_in : forall u y50 v, 0 < y50 -> (forall i, 0 <= u i < 1) -> In v (clay_tail u y50) -> 15 * y50 <= v.
Proof.
  intros u y50 v P U I. unfold clay_tail in I. apply (proj1 (rsort_in _ _)) in I. destruct I as [<-|I]; [lra|]. apply in_map_iff in I. destruct I as (i & <- & _). specialize (U i).
  assert (0 <= u i * (16 * y50 - 15 * y50)) by (apply Rmult_le_pos; lra). lra.
Qed.

Lemma clay_points : forall u y50, 0 < y50 -> (forall i, 0 <= u i < 1) ->
  clay_grid (16 * y50) [0; 0.1 * y50; 0.3 * y50; 1 * y50; 3 * y50; 8 * y50; 15 * y50; 16 * y50] (fun i => 15 * y50 + u i * (16 * y50 - 15 * y50)) 15 = clay_head y50 ++ clay_tail u y50.
Proof.
  intros u y50 P U. unfold clay_grid.
  assert (K : filter (fun v => if Rle_dec v (16 * y50) then true else false) [0; 0.1 * y50; 0.3 * y50; 1 * y50; 3 * y50; 8 * y50; 15 * y50; 16 * y50] = clay_head y50 ++ [16 * y50]).
  { unfold clay_head. cbn [filter app]. repeat (match goal with |- context [Rle_dec ?a ?b] => destruct (Rle_dec a b) as [_|N]; [|exfalso; apply N; lra] end). reflexivity. }
  rewrite K. cbv zeta. rewrite <- app_assoc. change (length (clay_head y50 ++ [16 * y50])) with 8%nat. change (15 - 8)%nat with 7%nat. apply rsort_low; [apply clay_head_sorted; exact P|].
  intros a x I J. assert (A : a <= 15 * y50) by (unfold clay_head in I; cbn [In] in I; repeat (destruct I as [<-|I]; [lra|]); contradiction).
  assert (X : 15 * y50 <= x) by (apply (clay_tail_in u y50 x P U); apply (proj2 (rsort_in _ _)); exact J). lra.
Qed.

Lemma frac_plateau : forall f b z kind r, b < 15 -> 8 < 15 -> 15 <= r -> frac_of f b z kind r = frac_of f b z kind 15.
Proof.
  intros f b z kind r B _ R0. destruct kind; cbn [frac_of].
  - unfold matlock_static. destruct (Rlt_dec 8 r); [|lra]. destruct (Rlt_dec 8 15); [reflexivity|lra].
  - unfold matlock_cyclic. destruct (Rle_dec r b); [lra|]. destruct (Rle_dec 15 b); [lra|]. destruct (Rlt_dec 1 z); [reflexivity|].
    destruct (Rlt_dec 15 15); [lra|]. destruct (Rlt_dec 15 r); [|replace r with 15 by lra; reflexivity]. field. lra.
Qed.

Lemma mapM_all : forall A B (f : A -> res B) g l, (forall a, In a l -> f a = Ok (g a)) -> mapM f l = Ok (map g l).
Proof. intros A B f g. induction l as [|a l IH]; intros H; [reflexivity|]. cbn [mapM map]. rewrite (H a (or_introl eq_refl)). cbn [bind]. rewrite IH by (intros; apply H; right; auto). reflexivity. Qed.

(** The curve of one draw: seven points that do not depend on it, and eight with the last resistance *)
Lemma api_clay_shape : forall sig X Su eps50 D J kind, 0 < Su -> 0 < eps50 -> 0 < D -> 0 < J -> 0 <= sig -> 0 <= X ->
  exists y50 g pl, 0 < y50 /\ g (15 * y50) = pl /\ forall u, (forall i, 0 <= u i < 1) -> api_clay u sig X Su eps50 D J kind 0 15 = Ok (clay_head y50 ++ clay_tail u y50, map g (clay_head y50) ++ repeat pl 8).
Proof.
  intros sig X Su eps50 D J kind HS HE HD HJ Hs HX. unfold api_clay. destruct (clay_Xr_ok sig X Su D J Hs HX ltac:(lra) HD HJ) as (Xr & E & LX). rewrite E. cbn [bind].
  set (y50 := clay_y50 eps50 D). assert (P : 0 < y50) by (unfold y50, clay_y50; apply Rmult_lt_0_compat; lra).
  assert (YM : clay_ymax y50 0 = 16 * y50) by (unfold clay_ymax; destruct (Req_EM_T 0 0); [reflexivity|lra]). rewrite YM.
  set (Pm := clay_Pmax sig X Su D J). set (g := fun v => Pm * frac_of 0.7185 3 (X / Xr) kind (v / y50)). exists y50, g, (g (15 * y50)). split; [exact P|]. split; [reflexivity|].
  intros u U. change (Nat.max 8 15) with 15%nat. rewrite (clay_points u y50 P U). rewrite (mapM_all _ _ _ g) by (intros a _; apply clay_p_eq; lra). cbn [bind]. rewrite map_app. f_equal. f_equal. f_equal.
  assert (L : length (clay_tail u y50) = 8%nat) by (unfold clay_tail; rewrite rsort_length; cbn [length]; rewrite map_length, seq_length; reflexivity).
  rewrite <- L. assert (T : forall v, In v (clay_tail u y50) -> g v = g (15 * y50)).
  { intros v I. unfold g. f_equal. rewrite (frac_plateau 0.7185 3 (X / Xr) kind (v / y50)); [|lra|lra|].
    - f_equal. field. lra.
    - pose proof (clay_tail_in u y50 v P U I). apply Rmult_le_reg_r with y50; [exact P|]. unfold Rdiv. rewrite Rmult_assoc, Rinv_l by lra. lra. }
  revert T. generalize (clay_tail u y50). induction l as [|a l IH]; intros T; [reflexivity|]. cbn [map length repeat]. rewrite (T a (or_introl eq_refl)). f_equal. apply IH. intros; apply T; right; auto.
Qed.

Section Stored.
Variable rnd : R -> Q.
Hypothesis ST : storage rnd.

Lemma points_app : forall y y' p p', length y = length p -> points rnd (y ++ y') (p ++ p') = points rnd y p ++ points rnd y' p'.
Proof using.
  intros y. unfold points. induction y as [|a y IH]; intros y' [|b p] p' L; try discriminate; [reflexivity|]. cbn [app map combine]. f_equal. apply IH. cbn in L. lia.
Qed.

Lemma tail_points : forall t v q, In q (points rnd t (repeat v (length t))) -> snd q = rnd v /\ exists x, In x t /\ fst q = rnd x.
Proof using.
  intros t v. unfold points. induction t as [|a t IH]; intros q I; [contradiction|]. cbn [length repeat map combine] in I. destruct I as [<-|I]; [cbn [fst snd]; split; [reflexivity|]; exists a; split; [left|]; reflexivity|].
  destruct (IH q I) as (E & x & J & F). split; [exact E|]. exists x. split; [right; exact J|exact F].
Qed.

Lemma map_repeat' : forall A B (f : A -> B) v n, map f (repeat v n) = repeat (f v) n.
Proof using. intros A B f v n. induction n as [|n IH]; [reflexivity|]. cbn [repeat map]. rewrite IH. reflexivity. Qed.

(** Two draws, after the multipliers and stored *)
Lemma clay_alike : forall y50 g pl u u' cx cy, 0 < y50 -> g (15 * y50) = pl -> (forall i, 0 <= u i < 1) -> (forall i, 0 <= u' i < 1) -> 0 <= cx ->
  let c := fun u => points rnd (map (fun v => v * cx) (clay_head y50 ++ clay_tail u y50)) (map (fun v => v * cy) (map g (clay_head y50) ++ repeat pl 8)) in
  acts_alike (c u) (c u').
Proof using ST.
  intros y50 g pl u u' cx cy P G U U' CX. cbv zeta. destruct ST as (MONO & Z & POS & _).
  assert (L : forall u, length (map (fun v => v * cx) (clay_tail u y50)) = 8%nat) by (intros u0; unfold clay_tail; rewrite map_length, rsort_length; cbn [length]; rewrite map_length, seq_length; reflexivity).
  assert (SH : forall u, points rnd (map (fun v => v * cx) (clay_head y50 ++ clay_tail u y50)) (map (fun v => v * cy) (map g (clay_head y50) ++ repeat pl 8)) =
    points rnd (map (fun v => v * cx) (firstn 6 (clay_head y50))) (map (fun v => v * cy) (map g (firstn 6 (clay_head y50)))) ++ (rnd (15 * y50 * cx), rnd (pl * cy)) :: points rnd (map (fun v => v * cx) (clay_tail u y50)) (repeat (pl * cy) 8)).
  { intros u0. rewrite !map_app. rewrite points_app by (rewrite !map_length; reflexivity). rewrite map_repeat'. unfold clay_head. cbn [firstn map]. rewrite G. unfold points at 1 3. cbn [map combine app]. reflexivity. }
  rewrite !SH. destruct (Rle_lt_or_eq_dec 0 cx CX) as [C|<-].
  - apply plateau_alike.
    + unfold points. rewrite combine_length, !map_length. cbn. lia.
    + unfold points. rewrite !combine_length, !map_length, repeat_length. pose proof (L u) as L1. pose proof (L u') as L2. rewrite map_length in L1, L2. rewrite L1, L2. reflexivity.
    + intros q I. rewrite <- (L u) in I. apply tail_points in I. apply I.
    + intros q I. rewrite <- (L u') in I. apply tail_points in I. apply I.
    + intros q I. apply in_points in I. destruct I as (a & b & A & _ & ->). cbn [fst]. apply in_map_iff in A. destruct A as (x & <- & A).
      assert (X : 0 <= x <= 15 * y50) by (unfold clay_head in A; cbn [firstn In] in A; repeat (destruct A as [<-|A]; [lra|]); contradiction).
      split; [rewrite <- Z|]; apply MONO; [apply Rmult_le_pos; lra|]. apply Rmult_le_compat_r; lra.
    + apply POS. apply Rmult_lt_0_compat; lra.
    + intros q I. rewrite <- (L u) in I. apply tail_points in I. destruct I as (_ & x & A & ->). apply in_map_iff in A. destruct A as (v & <- & A). apply MONO. apply Rmult_le_compat_r; [lra|]. exact (clay_tail_in u y50 v P U A).
    + intros q I. rewrite <- (L u') in I. apply tail_points in I. destruct I as (_ & x & A & ->). apply in_map_iff in A. destruct A as (v & <- & A). apply MONO. apply Rmult_le_compat_r; [lra|]. exact (clay_tail_in u' y50 v P U' A).
  - assert (E : forall u, map (fun v => v * 0) (clay_tail u y50) = repeat 0 8).
    { intros u0. rewrite <- (L u0). rewrite map_length. induction (clay_tail u0 y50) as [|a l IH]; [reflexivity|]. cbn [map length repeat]. rewrite Rmult_0_r, IH. reflexivity. }
    rewrite !E. apply acts_alike_refl.
Qed.

Definition alike_stored (v v' : stored_value) : Prop := v = v' \/ exists c c', v = Ok (Some [c]) /\ v' = Ok (Some [c']) /\ acts_alike c c'.

Lemma all_some_map : forall (l : list R), WholeModel.all_some (map Some l) = Some l.
Proof using. induction l as [|a l IH]; [reflexivity|]. cbn [map WholeModel.all_some]. rewrite IH. reflexivity. Qed.

Lemma py_alike : forall m u u' q, ~ sampled m -> (forall i, 0 <= u i < 1) -> (forall i, 0 <= u' i < 1) -> good_place q -> LateralProofs.admissible m q 15 -> 0 <= at_X (y_multiplier m) (q_X q) ->
  alike_stored (store_curve rnd (py_spring_fct m u q 0 15)) (store_curve rnd (py_spring_fct m u' q 0 15)).
Proof using ST.
  intros m u u' q NS U U' G A CX. destruct m; try (left; reflexivity); [|exfalso; apply NS; exact Logic.I].
  right. pose proof G as [G1 G2 GD GS GX]. cbn [LateralProofs.admissible] in A. destruct A as (A1 & A2 & A3).
  destruct (value_in _ _ _ _ pos_convex A1 G1 G2) as (s & E1 & P1). destruct (value_in _ _ _ _ pos_convex A2 G1 G2) as (g & E2 & P2). unfold pos in *.
  destruct (api_clay_shape (q_sig q) (q_X q) s g (q_D q) J kind P1 P2 GD ltac:(lra) GS GX) as (y50 & f & pl & PY & F & SH).
  set (md := API_clay Su eps50 kind J extension pm ym) in *.
  assert (E : forall u, (forall i, 0 <= u i < 1) -> store_curve rnd (py_spring_fct md u q 0 15) =
    Ok (Some [points rnd (map (fun v => v * at_X (y_multiplier md) (q_X q)) (clay_head y50 ++ clay_tail u y50)) (map (fun v => v * at_X (p_multiplier md) (q_X q)) (map f (clay_head y50) ++ repeat pl 8))])).
  { intros u0 U0. unfold py_spring_fct. rewrite inside_ok by apply G2. unfold md at 1, py_curve, value. rewrite E1, E2. cbn [bind]. rewrite (SH u0 U0). cbn [numbers bind fst snd]. unfold scaled_by. cbn [fst snd]. unfold store_curve. cbn [bind].
    rewrite !map_length, !app_length, map_length, repeat_length. unfold clay_tail at 1. rewrite rsort_length. cbn [length clay_head]. rewrite map_length, seq_length. cbn [Nat.eqb Nat.add andb].
    rewrite map_map. cbn [option_map]. rewrite <- (map_map (fun v => v * at_X (p_multiplier md) (q_X q)) Some). rewrite all_some_map. reflexivity. }
  rewrite (E u U), (E u' U'). eexists. eexists. split; [reflexivity|]. split; [reflexivity|]. apply clay_alike; auto.
Qed.
End Stored.
