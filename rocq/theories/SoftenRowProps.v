(** Property C135, continued: the rows of the moment springs of the PISA models, with their multipliers. *)
From Coq Require Import List Bool Arith Reals Lra Lia Psatz.
From Verif Require Import Base ConicModel ConicSpec ConicProofs PisaModel PisaSpec PisaProofs PisaProps AxialModel LateralModel LateralSpec LateralProofs MomentProofs LateralProps SoftenSpec SoftenProofs SoftenProps.
Import ListNotations.
Local Open Scope R_scope.

(** How many points keep clear of the ordinates that are set to the ultimate moment *)
Definition fine_rows (m : lateral_model) (q : place) (n : nat) : Prop :=
  match m with
  | Bothkennar_clay _ _ _ => (n <= 21)%nat
  | Cowden_clay _ _ _ => q_X q <= 3.5 * q_D q /\ (n <= 15)%nat
  | Custom_pisa_sand _ _ mt _ _ _ | Custom_pisa_clay _ _ _ mt _ _ _ => conic_fine mt q n
  | _ => False
  end.

Lemma custom_row : forall f q n num g sc, good_place q -> conic_fields f (q_X q) -> conic_regular f q -> conic_fine f q n -> (7 <= n)%nat -> 0 <= num -> 0 < g -> 0 <= sc ->
  exists xs ys, with_four f q (fun X nn k Y => scaled (conic X nn k Y n) num g sc) = Ok (xs, map Some ys) /\ softens xs ys.
Proof.
  intros f q n num g sc G F RG FN N NU GG SC. pose proof G as [G1 G2 GD GS GX]. destruct F as (B1 & B2 & B3 & B4).
  assert (F' : conic_fields f (q_X q)) by (unfold conic_fields; tauto).
  destruct (custom_curve f q n num g sc G F' RG N NU GG SC) as (x0 & c0 & k0 & y0 & xs & ys & _ & _ & EQ & E & _). exists xs, ys. rewrite EQ. split; [exact E|].
  unfold conic_fine, custom_value in FN.
  destruct (custom_value_in _ _ (q_depth q) (q_height q) (q_X q) wide_convex B1 G1 G2) as (x & Ex & Px). destruct (custom_value_in _ _ (q_depth q) (q_height q) (q_X q) curvature_convex B2 G1 G2) as (c & Ec & Pc).
  destruct (custom_value_in _ _ (q_depth q) (q_height q) (q_X q) pos_convex B3 G1 G2) as (k & Ek & Pk). destruct (custom_value_in _ _ (q_depth q) (q_height q) (q_X q) pos_convex B4 G1 G2) as (yy & Ey & Py).
  rewrite <- (EQ (fun X nn k Y => scaled (conic X nn k Y n) num g sc)) in E. unfold with_four, custom_value in E. rewrite Ex, Ec, Ek, Ey in E. cbn [bind] in E. unfold wide, curvature, pos in *. specialize (FN x Ex).
  apply (scaled_softens x c k yy n num g sc); auto; lra || lia.
Qed.

(** Every row of the moment springs of the PISA clays and of the custom models *)
Theorem C135_rows_partial : forall m u idx q ymax n, (forall i, 0 <= u i < 1) -> good_place q -> moment_admissible m q n -> 0 <= ymax -> (8 <= n)%nat ->
  0 <= at_X (t_multiplier m) (q_X q) -> 0 <= at_X (m_multiplier m) (q_X q) -> fine_rows m q n ->
  exists T M, mt_spring_fct m u idx q ymax n = Ok (T, map (map Some) M) /\ length T = n /\ length M = n /\ forall i, (i < n)%nat -> softens (nth i T []) (nth i M []).
Proof.
  intros m u idx q ymax n U G [A A'] HY N MT MM FN. pose proof G as [G1 G2 GD GS GX].
  assert (K : exists T M, mt_curve m u idx q ymax n = Ok (T, map (map Some) M) /\ length T = n /\ length M = n /\ forall i, (i < n)%nat -> softens (nth i T []) (nth i M [])).
  { destruct (py_curve_ok m u q ymax n U G A HY N) as (y & p & EP & (LY & LP & _ & _ & _ & PP) & _).
    destruct m; cbn [fine_rows] in FN; try contradiction; cbn [admissible] in A; cbn [py_curve] in EP; cbn [mt_curve].
    - unfold value in *. destruct A as (A1 & A2 & A3). destruct (value_in _ _ _ _ pos_convex A1 G1 G2) as (s & E1 & P1). destruct (value_in _ _ _ _ pos_convex A2 G1 G2) as (g & E2 & P2).
      rewrite E1, E2 in *. cbn [bind] in *. rewrite EP. cbn [bind snd]. unfold pos in *.
      destruct (C43_mt_bothkennar (q_X q) s g (q_D q) n) as (xs & ys & E & _); try lra; try lia.
      assert (SO : softens xs ys) by (apply mt_bothkennar_softens in E; auto; lra || lia).
      destruct (mt_rows_exist (fun _ xs ys => softens xs ys) (fun _ => mt_bothkennar (q_X q) s g (q_D q) n) (map Some p) n) as (T & M & L1 & L2 & ER & HI); [rewrite map_length; auto|intros v _; exists xs, ys; auto|].
      exists T, M. auto.
    - unfold value in *. destruct FN as [F1 F2]. destruct A as (A1 & A2 & A3). destruct (value_in _ _ _ _ pos_convex A1 G1 G2) as (s & E1 & P1). destruct (value_in _ _ _ _ pos_convex A2 G1 G2) as (g & E2 & P2).
      rewrite E1, E2 in *. cbn [bind] in *. rewrite EP. cbn [bind snd]. unfold pos in *.
      destruct (C43_mt_cowden_partial (q_X q) s g (q_D q) n) as (xs & ys & E & _); try lra; try lia.
      assert (SO : softens xs ys) by (apply mt_cowden_softens in E; auto; lra || lia).
      destruct (mt_rows_exist (fun _ xs ys => softens xs ys) (fun _ => mt_cowden (q_X q) s g (q_D q) n) (map Some p) n) as (T & M & L1 & L2 & ER & HI); [rewrite map_length; auto|intros v _; exists xs, ys; auto|].
      exists T, M. auto.
    - destruct A as (A1 & A2 & A3). destruct A' as (B1 & B2). destruct (custom_value_in _ _ (q_depth q) (q_height q) (q_X q) pos_convex A1 G1 G2) as (g & E1 & P1).
      assert (E1' : custom_value G0 q = Ok g) by exact E1. rewrite E1' in *. cbn [bind] in *. rewrite EP. cbn [bind snd]. unfold pos in P1.
      destruct (mt_rows_exist (fun _ xs ys => softens xs ys) (of_p (fun p => with_four mt q (fun X nn k Y => mt_custom_sand (q_sig q) g p (q_D q) X nn k Y n))) (map Some p) n) as (T & M & L1 & L2 & ER & HI).
      { rewrite map_length; auto. }
      { intros v I. apply in_map_iff in I. destruct I as (pv & <- & I). cbn [of_p]. apply custom_row; auto; [lia|]. apply Rmult_le_pos; [exact (PP pv I)|lra]. }
      exists T, M. auto.
    - destruct A as (A0 & A1 & A2 & A3). destruct A' as (B1 & B2). destruct (custom_value_in _ _ (q_depth q) (q_height q) (q_X q) pos_convex A0 G1 G2) as (s & E0 & P0).
      destruct (custom_value_in _ _ (q_depth q) (q_height q) (q_X q) pos_convex A1 G1 G2) as (g & E1 & P1).
      assert (E0' : custom_value Su q = Ok s) by exact E0. assert (E1' : custom_value G0 q = Ok g) by exact E1. rewrite E0', E1' in *. cbn [bind] in *. rewrite EP. cbn [bind snd]. unfold pos in P0, P1.
      destruct (scales s (q_D q)) as (S1 & S2 & S3); [lra|auto|].
      destruct (custom_row mt q n s g (s * q_D q ^ 2)) as (xs & ys & E & SO); auto; try lra; try lia.
      destruct (mt_rows_exist (fun _ xs ys => softens xs ys) (fun _ => with_four mt q (fun X nn k Y => mt_custom_clay s g (q_D q) X nn k Y n)) (map Some p) n) as (T & M & L1 & L2 & ER & HI);
        [rewrite map_length; auto|intros v _; exists xs, ys; auto|].
      exists T, M. auto. }
  destruct K as (T & M & E & LT & LM & SO).
  assert (W : mt_spring_fct m u idx q ymax n = inside_layer q (bind (mt_curve m u idx q ymax n) (fun c => Ok (scaled_rows (at_X (t_multiplier m) (q_X q)) (at_X (m_multiplier m) (q_X q)) c)))) by (destruct m; cbn [fine_rows] in FN; try contradiction; reflexivity).
  rewrite W, inside_ok by lra. rewrite E. cbn [bind]. rewrite scaled_rows_numbers. eexists _, _. split; [reflexivity|]. rewrite !map_length. do 2 (split; [auto|]).
  intros i Hi. rewrite !nth_rows. apply softens_scale; auto.
Qed.
Print Assumptions C135_rows_partial.

(** In Dunkirk sand no row of a point that resists softens, as a spring of 15 points with positive multipliers. *)
Theorem C135_rows_dunkirk_refuted : forall Dr G0 mu u idx q ymax dr, (forall i, 0 <= u i < 1) -> good_place q -> moment_admissible (Dunkirk_sand Dr G0 mu) q 15 -> 0 <= ymax -> 0 < q_sig q ->
  0 < at_X (t_multiplier (Dunkirk_sand Dr G0 mu)) (q_X q) -> 0 < at_X (m_multiplier (Dunkirk_sand Dr G0 mu)) (q_X q) ->
  value Dr q = Ok dr -> 0.2 <= 0.2605 + (-0.1989 + 0.2019 * (dr / 100)) * (q_X q / q_L q) <= 0.2605 ->
  exists y p T M, py_curve (Dunkirk_sand Dr G0 mu) u q ymax 15 = Ok (y, map Some p) /\ mt_spring_fct (Dunkirk_sand Dr G0 mu) u idx q ymax 15 = Ok (T, map (map Some) M) /\
    forall i, (i < 15)%nat -> nth i p 0 <> 0 -> ~ softens (nth i T []) (nth i M []).
Proof.
  intros Dr G0 mu u idx q ymax dr U G [A A'] HY HS MT MM VD YU. pose proof G as [G1 G2 GD GS GX].
  set (m := Dunkirk_sand Dr G0 mu) in *. destruct (py_curve_ok m u q ymax 15 U G A HY ltac:(lia)) as (y & p & EP & (LY & LP & _ & _ & _ & PP) & _). pose proof EP as EP0.
  destruct (moment_ok m u idx q ymax 15 U G (conj A A') HY ltac:(lia)) as (y0 & p0 & T0 & M0 & EP1 & _ & EM & LT & LM & SPR & _).
  unfold m in A, EP, EM. cbn [admissible] in A. cbn [py_curve] in EP. cbn [mt_curve] in EM. destruct A as (A1 & A2 & A3 & A4 & A5). rewrite VD in *. cbn [bind] in *.
  assert (VG : exists g, value G0 q = Ok g /\ pos g) by (unfold value; destruct (value_in _ _ _ _ pos_convex A2 G1 G2) as (g & E2 & P2); eauto). destruct VG as (g & EG & PG). unfold pos in PG. rewrite EG in *. cbn [bind] in *. rewrite EP in EM. cbn [bind snd] in EM.
  destruct (mt_rows_exist (fun v xs ys => forall pv, v = Some pv -> pv <> 0 -> ~ softens xs ys /\ nth 1 ys 0 > 0 /\ 2.6 * (nth 1 ys 0 * nth 6 xs 0) < nth 6 ys 0 * nth 1 xs 0)
    (of_p (fun p => mt_dunkirk (q_sig q) (q_X q) dr g p (q_D q) (q_L q) 15)) (map Some p) 15) as (T & M & L1 & L2 & ER & HI).
  { rewrite map_length; exact LP. }
  { intros v I. apply in_map_iff in I. destruct I as (pv & <- & I). cbn [of_p]. destruct (Req_EM_T pv 0) as [->|NZ].
    - assert (EX : exists xs ys, mt_dunkirk (q_sig q) (q_X q) dr g 0 (q_D q) (q_L q) 15 = Ok (xs, map Some ys)).
      { pose proof (A' dr eq_refl) as AA. unfold density in *. destruct (value_in _ _ _ _ density_convex A1 G1 G2) as (s & E1 & P1). unfold value in VD. rewrite E1 in VD. assert (s = dr) by congruence. subst s. unfold density in P1.
        destruct (C43_mt_dunkirk_partial (q_sig q) (q_X q) dr g 0 (q_D q) (q_L q) 15) as (xs & ys & E & _); try lra; try lia. exists xs, ys. exact E. }
      destruct EX as (xs & ys & E). exists xs, ys. split; [exact E|]. intros pv EV NZ. exfalso. apply NZ. congruence.
    - destruct (C135_moments_dunkirk_refuted (q_sig q) (q_X q) dr g pv (q_D q) (q_L q)) as (xs & ys & E & NS & P1 & Q); try lra. exists xs, ys. split; [exact E|]. intros pv' _ _. split; [exact NS|]. split; [exact P1|exact Q]. }
  assert (W : mt_curve m u idx q ymax 15 = Ok (T, map (map Some) M)) by (unfold m; cbn [mt_curve]; rewrite VD; cbn [bind]; rewrite EG; cbn [bind]; rewrite EP; cbn [bind snd]; exact ER).
  exists y, p. assert (SP : mt_spring_fct m u idx q ymax 15 = inside_layer q (bind (mt_curve m u idx q ymax 15) (fun c => Ok (scaled_rows (at_X (t_multiplier m) (q_X q)) (at_X (m_multiplier m) (q_X q)) c)))) by reflexivity.
  rewrite SP, inside_ok by lra. rewrite W. cbn [bind]. rewrite scaled_rows_numbers. eexists _, _. split; [exact EP0|]. split; [reflexivity|].
  intros i Hi NZ. rewrite !nth_rows. assert (WI : nth i (map Some p) None = Some (nth i p 0)) by (rewrite nth_indep with (d' := Some 0) by (rewrite map_length; lia); apply map_nth).
  destruct (HI i Hi (nth i p 0) WI NZ) as (_ & P1 & Q). intros (_ & _ & H). specialize (H 6%nat). rewrite !(nth_scale _ _ _) in H.
  set (ct := at_X (t_multiplier m) (q_X q)) in *. set (cm := at_X (m_multiplier m) (q_X q)) in *. set (y1 := nth 1 (nth i M []) 0) in *. set (y6 := nth 6 (nth i M []) 0) in *. set (x1 := nth 1 (nth i T []) 0) in *. set (x6 := nth 6 (nth i T []) 0) in *.
  assert (CC : 0 < cm * ct) by (apply Rmult_lt_0_compat; assumption).
  assert (H' : (y6 * x1) * (cm * ct) <= (y1 * x6) * (cm * ct)) by lra. apply Rmult_le_reg_r in H'; [|exact CC].
  assert (S6 : 0 <= x6 * y1); [|lra].
  assert (T0 = T) by congruence. subst T0. destruct (SPR i Hi) as [(LX & _ & X0 & _ & SX & _) _].
  assert (0 <= x6) by (unfold x6; rewrite <- X0 at 1; apply (SX 0%nat 6%nat); lia). apply Rmult_le_pos; lra.
Qed.
Print Assumptions C135_rows_dunkirk_refuted.

(** A custom clay and a custom sand with 15 points *)
Lemma case_fine : conic_fine case_four case_place 15.
Proof.
  intros x E. cbn [f_X case_four] in E. unfold custom_value, at_current_depth, in_layer in E. cbn [top_bottom bind fst snd] in E. rewrite at_depth_between in E by (cbn; lra).
  assert (X : x = LateralSpec.between 100 120 (q_depth case_place / q_height case_place)) by congruence. unfold LateralSpec.between in X. cbn [q_depth q_height case_place] in X.
  replace (INR (15 - 6)) with 9 by (simpl; lra). lra.
Qed.
Definition case_sand : lateral_model := Custom_pisa_sand (PNum 20000) case_four case_four case_four case_four case_mults.
Example C135_rows_case : forall m, m = case_custom \/ m = case_sand -> exists T M, mt_spring_fct m (fun _ => 0) [] case_place 0 15 = Ok (T, map (map Some) M) /\ length T = 15%nat /\ length M = 15%nat /\
  forall i, (i < 15)%nat -> softens (nth i T []) (nth i M []).
Proof.
  destruct case_fields as [F RG]. assert (P : custom_values pos (PList [50; 90]) 6 /\ custom_values pos (PNum 20000) 6) by (cbn; unfold pos; lra). destruct P as [P1 P2].
  intros m [-> | ->]; (apply C135_rows_partial; [intros i; lra|apply case_good| |lra|lia|cbn; lra|cbn; lra|exact case_fine]);
    unfold moment_admissible, case_custom, case_sand, admissible; cbn [q_X case_place]; auto 10.
Qed.

(** The Dunkirk sand of C74_case: every row of a positive resistance is too stiff at its seventh point *)
Example C135_rows_dunkirk_case : exists y p T M, py_curve (Dunkirk_sand (PNum 75) (PNum 50000) (mkMults (MNum 0) (MNum 1) (MNum 1) (MNum 1))) (fun _ => 0) case_place 0 15 = Ok (y, map Some p) /\
  mt_spring_fct (Dunkirk_sand (PNum 75) (PNum 50000) (mkMults (MNum 0) (MNum 1) (MNum 1) (MNum 1))) (fun _ => 0) [] case_place 0 15 = Ok (T, map (map Some) M) /\
  forall i, (i < 15)%nat -> nth i p 0 <> 0 -> ~ softens (nth i T []) (nth i M []).
Proof.
  destruct C74_case as [A B]. apply (C135_rows_dunkirk_refuted _ _ _ _ _ _ _ 75); auto; try (cbn; lra); [intros i; lra|apply case_good|].
  unfold value, in_layer. cbn [top_bottom bind fst snd]. rewrite at_depth_between by (cbn; lra). f_equal. unfold LateralSpec.between. ring.
Qed.
