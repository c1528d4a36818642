(** Points at random displacements on a rising curve: the polygon depends on the draws. *)
From Coq Require Import List Bool Arith ZArith QArith Qabs Reals Qreals Qpower Permutation Lia Lqa Lra.
From Verif Require Import Base PileModel SpringModel SpringProper SpringProofs CreateModel ConicModel ConicSpec PisaModel ApiSandModel ApiClayModel ApiClaySpec ApiClayProofs
  LateralModel LateralSpec LateralProofs StartProofs FullModel FullSpec FullProofs RandomSpec RandomProofs PlateauProofs.
Import ListNotations.
Local Open Scope R_scope.

Lemma nd_cons : forall a l, (forall x, In x l -> a <= x) -> nondecreasing l -> nondecreasing (a :: l).
Proof.
  intros a l H N i j L B. destruct i as [|i], j as [|j]; cbn [nth]; [lra| |lia|].
  - apply H. apply nth_In. cbn [length] in B. lia.
  - apply N; cbn [length] in B; lia.
Qed.
Lemma nd_unique : forall l l', nondecreasing l -> nondecreasing l' -> Permutation l l' -> l = l'.
Proof.
  induction l as [|a l IH]; intros l' N N' P; [apply Permutation_nil in P; auto|]. destruct l' as [|b l']; [apply Permutation_sym, Permutation_nil in P; discriminate|].
  assert (AB : a = b).
  { assert (I1 : In a (b :: l')) by (eapply Permutation_in; [exact P|left; reflexivity]). assert (I2 : In b (a :: l)) by (eapply Permutation_in; [apply Permutation_sym; exact P|left; reflexivity]).
    destruct I1 as [E|I1]; [auto|]. destruct I2 as [E|I2]; [auto|]. pose proof (nondecreasing_hd a l b N I2). pose proof (nondecreasing_hd b l' a N' I1). lra. }
  subst b. f_equal. apply IH; [exact (nondecreasing_tl a l N)|exact (nondecreasing_tl a l' N')|exact (Permutation_cons_inv P)].
Qed.
Lemma rsort_is : forall l l', Permutation l l' -> nondecreasing l' -> rsort l = l'.
Proof. intros l l' P N. apply nd_unique; [apply rsort_nd|exact N|]. rewrite rsort_perm. exact P. Qed.

(** The interpolation between two neighbouring points *)
Lemma interp_segment : forall h x0 y0 x1 y1 t x, (forall q, In q h -> fst q <= x)%Q -> (x0 <= x)%Q -> (x < x1)%Q ->
  interp x (h ++ (x0, y0) :: (x1, y1) :: t) = (y0 + (y1 - y0) / (x1 - x0) * (x - x0))%Q.
Proof.
  induction h as [|[a b] h IH]; intros x0 y0 x1 y1 t x L X0 X1; cbn [app].
  - rewrite interp_step. destruct (Qltb x x1) eqn:E1; [|apply Qltb_false in E1; Lqa.lra]. destruct (Qltb x x0) eqn:E0; [apply Qltb_true in E0; Lqa.lra|reflexivity].
  - assert (IH' := IH x0 y0 x1 y1 t x ltac:(intros; apply L; right; auto) X0 X1). destruct h as [|[a1 b1] h]; cbn [app] in *; rewrite interp_step.
    + destruct (Qltb x x0) eqn:E; [apply Qltb_true in E; Lqa.lra|exact IH'].
    + pose proof (L (a1, b1) (or_intror (or_introl eq_refl))) as L1. cbn [fst] in L1. destruct (Qltb x a1) eqn:E; [apply Qltb_true in E; Lqa.lra|exact IH'].
Qed.

(** ** The grid of two draws *)
Definition early (y50 : R) : list R := 0 :: repeat (0.01 * y50) 8.
Definition late (y50 : R) : list R := [3 * y50; 8 * y50; 15 * y50; 16 * y50].

Definition base_grid (y50 : R) : list R := [0; 0.01 * y50; 0.10 * y50; 1 * y50; 3 * y50; 8 * y50; 15 * y50; 16 * y50].
Lemma kept_all : forall y50, 0 < y50 -> filter (fun v => if Rle_dec v (16 * y50) then true else false) (base_grid y50) = base_grid y50.
Proof. intros y50 P. unfold base_grid. cbn [filter]. repeat (match goal with |- context [Rle_dec ?a ?b] => destruct (Rle_dec a b) as [_|N]; [|exfalso; apply N; lra] end). reflexivity. Qed.

Ltac ordered := repeat (apply nd_cons; [let x := fresh in let I := fresh in intros x I; cbn [In] in I; repeat (destruct I as [<-|I]; [lra|]); contradiction|]); let i := fresh in let j := fresh in intros i j _ B; cbn [length] in B; lia.
Lemma grid_none : forall y50 added, 0 < y50 -> (forall i, added i = 0.01 * y50) -> clay_grid (16 * y50) (base_grid y50) added 15 = (0 :: repeat (0.01 * y50) 8) ++ 0.10 * y50 :: 1 * y50 :: late y50.
Proof.
  intros y50 added P A. unfold clay_grid. rewrite kept_all by exact P. cbv zeta. change (15 - length (base_grid y50))%nat with 7%nat. cbn [seq map]. rewrite !A. apply rsort_is.
  - unfold base_grid, late. cbn [app repeat]. apply perm_skip. apply perm_skip. set (a := 0.01 * y50).
    change [0.10 * y50; 1 * y50; 3 * y50; 8 * y50; 15 * y50; 16 * y50; a; a; a; a; a; a; a] with ([0.10 * y50; 1 * y50; 3 * y50; 8 * y50; 15 * y50; 16 * y50] ++ [a; a; a; a; a; a; a]). apply Permutation_app_comm.
  - unfold late. cbn [app repeat]. ordered.
Qed.
Lemma grid_mid : forall y50 added, 0 < y50 -> (forall i, added i = 0.55 * y50) -> clay_grid (16 * y50) (base_grid y50) added 15 = ([0; 0.01 * y50; 0.10 * y50] ++ repeat (0.55 * y50) 6) ++ 0.55 * y50 :: 1 * y50 :: late y50.
Proof.
  intros y50 added P A. unfold clay_grid. rewrite kept_all by exact P. cbv zeta. change (15 - length (base_grid y50))%nat with 7%nat. cbn [seq map]. rewrite !A. apply rsort_is.
  - unfold base_grid, late. cbn [app repeat]. do 3 apply perm_skip. set (a := 0.55 * y50).
    change [1 * y50; 3 * y50; 8 * y50; 15 * y50; 16 * y50; a; a; a; a; a; a; a] with ([1 * y50; 3 * y50; 8 * y50; 15 * y50; 16 * y50] ++ [a; a; a; a; a; a; a]). apply Permutation_app_comm.
  - unfold late. cbn [app repeat]. ordered.
Qed.

Lemma Rpower_ge_pow : forall x c, 0 < x -> 0 < c -> c ^ 100 <= x ^ 33 -> c <= Rpower x 0.33.
Proof.
  intros x c X C H. assert (E : 0.33 = / 100 * INR 33) by (cbn [INR]; lra). rewrite E, Rmult_comm, <- Rpower_mult, Rpower_pow by auto.
  replace c with (Rpower (c ^ 100) (/ 100)).
  - apply Rle_Rpower_l; [lra|]. split; [apply pow_lt; exact C|exact H].
  - rewrite <- Rpower_pow, Rpower_mult by auto. replace (INR 100 * / 100) with 1 by (replace (INR 100) with 100 by (rewrite INR_IZR_INZ; reflexivity); lra). apply Rpower_1. exact C.
Qed.
Lemma rise_tenth : rise 0.1 <= 0.25.
Proof. unfold rise. destruct (Rlt_dec 0 0.1); [|lra]. assert (Rpower 0.1 0.33 <= 0.5); [|lra]. apply pow_le_Rpower; lra. Qed.
Lemma rise_mid : 0.4 <= rise 0.55.
Proof. unfold rise. destruct (Rlt_dec 0 0.55); [|lra]. assert (0.8 <= Rpower 0.55 0.33); [|lra]. apply Rpower_ge_pow; lra. Qed.

Lemma frac_rise : forall f z kind r, r <= 1 -> frac_of f 1 z kind r = rise r.
Proof. intros f z kind r H. destruct kind; cbn [frac_of]; [unfold matlock_static; destruct (Rlt_dec 8 r); [lra|reflexivity]|unfold matlock_cyclic; destruct (Rle_dec r 1); [reflexivity|lra]]. Qed.

Definition none_drawn : nat -> R := fun _ => 0.
Definition mid_drawn : nat -> R := fun _ => 0.54 / 7.99.
Lemma none_fair : forall i, 0 <= none_drawn i < 1. Proof. intros i. unfold none_drawn. lra. Qed.
Lemma mid_fair : forall i, 0 <= mid_drawn i < 1. Proof. intros i. unfold mid_drawn. lra. Qed.

(** The two curves, between a tenth of y50 and y50 *)
Lemma matlock_two : forall sig X Su eps50 D J kind, 0 < Su -> 0 < eps50 -> 0 < D -> 0 < J -> 0 <= sig -> 0 <= X ->
  exists y50 P g, 0 < y50 /\ 0 < P /\ (forall r, r <= 1 -> g (r * y50) = P * rise r) /\
  modified_Matlock none_drawn sig X Su eps50 D J kind 0 15 = Ok (early y50 ++ 0.10 * y50 :: 1 * y50 :: late y50, map g (early y50 ++ 0.10 * y50 :: 1 * y50 :: late y50)) /\
  modified_Matlock mid_drawn sig X Su eps50 D J kind 0 15 =
    Ok (([0; 0.01 * y50; 0.10 * y50] ++ repeat (0.55 * y50) 6) ++ 0.55 * y50 :: 1 * y50 :: late y50, map g (([0; 0.01 * y50; 0.10 * y50] ++ repeat (0.55 * y50) 6) ++ 0.55 * y50 :: 1 * y50 :: late y50)).
Proof.
  intros sig X Su eps50 D J kind HS HE HD HJ Hs HX. unfold modified_Matlock. destruct (clay_Xr_ok sig X Su D J Hs HX ltac:(lra) HD HJ) as (Xr & E & LX). rewrite E. cbn [bind].
  set (y50 := clay_y50 eps50 D). assert (P : 0 < y50) by (unfold y50, clay_y50; apply Rmult_lt_0_compat; lra).
  assert (YM : clay_ymax y50 0 = 16 * y50) by (unfold clay_ymax; destruct (Req_EM_T 0 0); [reflexivity|lra]). rewrite YM.
  set (Pm := clay_Pmax sig X Su D J). set (g := fun v => Pm * frac_of 0.5 1 (X / Xr) kind (v / y50)). exists y50, Pm, g. split; [exact P|]. split.
  { unfold Pm, clay_Pmax. assert (0 < Su * D) by (apply Rmult_lt_0_compat; auto). assert (0 <= sig * D) by (apply Rmult_le_pos; lra). assert (0 <= J * Su * X) by (apply Rmult_le_pos; [apply Rmult_le_pos; lra|lra]). apply Rmin_glb_lt; lra. }
  split. { intros r R1. unfold g. replace (r * y50 / y50) with r by (field; lra). rewrite frac_rise by exact R1. reflexivity. }
  change (Nat.max 8 15) with 15%nat. fold (base_grid y50). split.
  - rewrite (grid_none y50) by (auto; intros i; unfold none_drawn; lra). rewrite (mapM_all _ _ _ g) by (intros a _; apply clay_p_eq; lra). reflexivity.
  - rewrite (grid_mid y50) by (auto; intros i; unfold mid_drawn; lra). rewrite (mapM_all _ _ _ g) by (intros a _; apply clay_p_eq; lra). reflexivity.
Qed.

Section Differ.
Variable rnd : R -> Q.
Hypothesis ST : storage rnd.
Hypothesis PR : precise rnd.

Lemma rnd_near : forall x, 0 < x -> 0.999999 * x <= Q2R (rnd x) <= 1.000001 * x.
Proof using PR. intros x P. pose proof (PR x) as H. rewrite (Rabs_pos_eq x) in H by lra. apply Rabs_def2 in H || (unfold Rabs in H; destruct (Rcase_abs _); lra). Qed.

Lemma segment_resistance : forall h (g : R -> R) cx cy a b t d, (forall v, In v h -> v * cx <= d) -> a * cx <= d -> (rnd d < rnd (b * cx))%Q ->
  resistance (points rnd (map (fun v => v * cx) (h ++ a :: b :: t)) (map (fun v => v * cy) (map g (h ++ a :: b :: t)))) (rnd d) =
  (rnd (g a * cy) + (rnd (g b * cy) - rnd (g a * cy)) / (rnd (b * cx) - rnd (a * cx)) * (rnd d - rnd (a * cx)))%Q.
Proof using ST.
  intros h g cx cy a b t d H A B. destruct ST as (MONO & _).
  rewrite !map_app. cbn [map].  rewrite points_app by (rewrite !map_length; reflexivity).
  change (points rnd (a * cx :: b * cx :: map (fun v => v * cx) t) (g a * cy :: g b * cy :: map (fun v => v * cy) (map g t))) with
    ((rnd (a * cx), rnd (g a * cy)) :: (rnd (b * cx), rnd (g b * cy)) :: points rnd (map (fun v => v * cx) t) (map (fun v => v * cy) (map g t))).
  unfold resistance. match goal with |- context [Qltb (qmax ?l) ?x] => assert (M : (rnd (b * cx) <= qmax l)%Q) end.
  { apply qmax_ge. apply in_map_iff. exists (rnd (b * cx), rnd (g b * cy)). split; [reflexivity|]. apply in_or_app. right. right. left. reflexivity. }
  destruct (Qltb _ (rnd d)) eqn:E; [apply Qltb_true in E; Lqa.lra|]. apply interp_segment; [|apply MONO; exact A|exact B].
  intros q I. apply in_points in I. destruct I as (x & y & I & _ & ->). cbn [fst]. apply in_map_iff in I. destruct I as (v & <- & I). apply MONO. apply H. exact I.
Qed.

Lemma chord_below : forall Y P cx cy (g : R -> R), 0 < Y -> 0 < P -> 0 < cx -> 0 < cy -> (forall r, r <= 1 -> g (r * Y) = P * rise r) ->
  let a := 0.10 * Y in let b := 1 * Y in let d := 0.55 * Y * cx in
  (rnd d < rnd (b * cx))%Q /\ ~ (rnd (g a * cy) + (rnd (g b * cy) - rnd (g a * cy)) / (rnd (b * cx) - rnd (a * cx)) * (rnd d - rnd (a * cx)) == rnd (g (0.55 * Y)%R * cy))%Q.
Proof using ST PR.
  intros Y P cx cy g HY HP HX HC G a b d. unfold a, b, d. rewrite !G by lra. clear G a b d. rewrite rise_1.
  assert (Z : 0 < Y * cx) by (apply Rmult_lt_0_compat; auto). assert (W : 0 < P * cy) by (apply Rmult_lt_0_compat; auto).
  replace (0.55 * Y * cx) with (0.55 * (Y * cx)) by ring. replace (1 * Y * cx) with (Y * cx) by ring. replace (0.10 * Y * cx) with (0.10 * (Y * cx)) by ring.
  replace (P * rise 0.10 * cy) with (rise 0.10 * (P * cy)) by ring. replace (P * (1 / 2) * cy) with (0.5 * (P * cy)) by lra. replace (P * rise 0.55 * cy) with (rise 0.55 * (P * cy)) by ring.
  set (z := Y * cx) in *. set (w := P * cy) in *. clearbody z w.
  pose proof (rnd_near (0.55 * z) ltac:(lra)) as D. pose proof (rnd_near z Z) as B. pose proof (rnd_near (0.10 * z) ltac:(lra)) as A.
  pose proof rise_tenth as R1. pose proof rise_mid as R2. replace 0.10 with 0.1 in * by lra.
  assert (R0 : 0 < rise 0.1) by (unfold rise; destruct (Rlt_dec 0 0.1); [|lra]; apply Rmult_lt_0_compat; [apply exp_pos|lra]).
  assert (W1 : 0 < rise 0.1 * w) by (apply Rmult_lt_0_compat; auto). assert (W2 : 0.4 * w <= rise 0.55 * w) by (apply Rmult_le_compat_r; lra). assert (W3 : rise 0.1 * w <= 0.25 * w) by (apply Rmult_le_compat_r; lra).
  pose proof (rnd_near (rise 0.1 * w) W1) as PA. pose proof (rnd_near (0.5 * w) ltac:(lra)) as PB. pose proof (rnd_near (rise 0.55 * w) ltac:(lra)) as PM.
  assert (BA : (rnd (0.1 * z) < rnd z)%Q) by (apply Rlt_Qlt; lra).
  split; [apply Rlt_Qlt; lra|]. intros E. apply Qeq_eqR in E. rewrite Q2R_plus, Q2R_mult, Q2R_div, !Q2R_minus in E by (intros X; Lqa.lra).
  set (xa := Q2R (rnd (0.1 * z))) in *. set (xb := Q2R (rnd z)) in *. set (xd := Q2R (rnd (0.55 * z))) in *. set (ya := Q2R (rnd (rise 0.1 * w))) in *. set (yb := Q2R (rnd (0.5 * w))) in *. set (ym := Q2R (rnd (rise 0.55 * w))) in *.
  clearbody xa xb xd ya yb ym. set (s := (xd - xa) / (xb - xa)). assert (XB : 0 < xb - xa) by lra.
  assert (S1 : s <= 0.51). { unfold s. apply Rmult_le_reg_r with (xb - xa); [exact XB|]. unfold Rdiv. rewrite Rmult_assoc, Rinv_l by lra. lra. }
  assert (S0 : 0 <= s). { unfold s. apply Rmult_le_pos; [lra|left; apply Rinv_0_lt_compat; exact XB]. }
  replace (ya + (yb - ya) / (xb - xa) * (xd - xa)) with (ya * (1 - s) + yb * s) in E by (unfold s; field; lra).
  assert (ya * (1 - s) <= 0.250001 * w * (1 - s)) by (apply Rmult_le_compat_r; lra). assert (yb * s <= 0.500001 * w * s) by (apply Rmult_le_compat_r; lra).
  assert (w * s <= w * 0.51) by (apply Rmult_le_compat_l; lra). nra.
Qed.

Lemma sampled_differ : forall Su eps50 kind J ext pm ym q, good_place q -> LateralProofs.admissible (Modified_Matlock_clay Su eps50 kind J ext pm ym) q 15 -> 0 < at_X pm (q_X q) -> 0 < at_X ym (q_X q) ->
  exists c c', store_curve rnd (py_spring_fct (Modified_Matlock_clay Su eps50 kind J ext pm ym) none_drawn q 0 15) = Ok (Some [c]) /\
  store_curve rnd (py_spring_fct (Modified_Matlock_clay Su eps50 kind J ext pm ym) mid_drawn q 0 15) = Ok (Some [c']) /\ exists d, ~ (resistance c d == resistance c' d)%Q.
Proof using ST PR.
  intros Su eps50 kind J ext pm ym q G A PP PY. pose proof G as [G1 G2 GD GS GX]. cbn [LateralProofs.admissible] in A. destruct A as (A1 & A2 & A3).
  destruct (value_in _ _ _ _ pos_convex A1 G1 G2) as (s & E1 & P1). destruct (value_in _ _ _ _ pos_convex A2 G1 G2) as (e & E2 & P2). unfold pos in *.
  destruct (matlock_two (q_sig q) (q_X q) s e (q_D q) J kind P1 P2 GD ltac:(lra) GS GX) as (Y & P & g & HY & HP & HG & M1 & M2).
  set (cx := at_X ym (q_X q)) in *. set (cy := at_X pm (q_X q)) in *. destruct (chord_below Y P cx cy g HY HP PY PP HG) as [LT NE].
  assert (ZZ : 0 < Y * cx) by (apply Rmult_lt_0_compat; auto).
  set (h := early Y). set (h' := [0; 0.01 * Y; 0.10 * Y] ++ repeat (0.55 * Y) 6). set (d := 0.55 * Y * cx) in *.
  assert (KEY : forall u l, modified_Matlock u (q_sig q) (q_X q) s e (q_D q) J kind 0 15 = Ok (l, map g l) -> length l = 15%nat ->
    store_curve rnd (py_spring_fct (Modified_Matlock_clay Su eps50 kind J ext pm ym) u q 0 15) = Ok (Some [points rnd (map (fun v => v * cx) l) (map (fun v => v * cy) (map g l))])).
  { intros u l M L. unfold py_spring_fct. rewrite inside_ok by apply G2. unfold py_curve, value. rewrite E1, E2. cbn [bind]. rewrite M. cbn [numbers bind fst snd p_multiplier y_multiplier]. unfold scaled_by. cbn [fst snd]. fold cx cy. unfold store_curve. cbn [bind].
    rewrite !map_length, L. cbn [Nat.eqb andb]. rewrite map_map. cbn [option_map]. rewrite <- (map_map (fun v => v * cy) Some). rewrite all_some_map. reflexivity. }
  assert (L1 : length (h ++ 0.10 * Y :: 1 * Y :: late Y) = 15%nat) by reflexivity. assert (L2 : length (h' ++ 0.55 * Y :: 1 * Y :: late Y) = 15%nat) by reflexivity.
  exists (points rnd (map (fun v => v * cx) (h ++ 0.10 * Y :: 1 * Y :: late Y)) (map (fun v => v * cy) (map g (h ++ 0.10 * Y :: 1 * Y :: late Y)))),
    (points rnd (map (fun v => v * cx) (h' ++ 0.55 * Y :: 1 * Y :: late Y)) (map (fun v => v * cy) (map g (h' ++ 0.55 * Y :: 1 * Y :: late Y)))).
  split; [apply KEY; auto|]. split; [apply KEY; auto|]. exists (rnd d).
  assert (B1 : forall v, In v h -> v * cx <= d). { intros v I. replace d with (0.55 * Y * cx) by reflexivity. apply Rmult_le_compat_r; [lra|]. unfold h, early in I. destruct I as [<-|I]; [lra|]. apply repeat_spec in I. subst v. lra. }
  assert (B2 : forall v, In v h' -> v * cx <= d). { intros v I. replace d with (0.55 * Y * cx) by reflexivity. apply Rmult_le_compat_r; [lra|]. unfold h' in I. apply in_app_or in I. destruct I as [I|I]; [cbn in I; destruct I as [<-|[<-|[<-|[]]]]; lra|]. apply repeat_spec in I. subst v. lra. }
  rewrite (segment_resistance h g cx cy (0.10 * Y) (1 * Y) (late Y) d B1) by (auto; unfold d; apply Rmult_le_compat_r; lra).
  rewrite (segment_resistance h' g cx cy (0.55 * Y) (1 * Y) (late Y) d B2) by (auto; unfold d; lra).
  intros E. apply NE. rewrite E. fold d. setoid_replace (rnd d - rnd d)%Q with 0%Q by ring. ring.
Qed.
End Differ.

(** ** A storage with a relative error below a millionth: the next lower power of 1.000001 *)
Definition ratio : Q := 1000001 # 1000000.
Lemma ratio_R : Q2R ratio = 1.000001. Proof. unfold Q2R, ratio. cbn [Qnum Qden]. lra. Qed.
Lemma ln_ratio : 0 < ln 1.000001. Proof. rewrite <- ln_1. apply ln_increasing; lra. Qed.
Lemma power_R : forall q k, (0 < q)%Q -> Q2R (Qpower q k) = powerRZ (Q2R q) k.
Proof.
  intros q k P. assert (A : forall p, Q2R (Qpower_positive q p) = Q2R q ^ Pos.to_nat p).
  { intros p. induction p as [|p IH] using Pos.peano_ind; [change (Qpower_positive q 1) with q; change (Pos.to_nat 1) with 1%nat; rewrite pow_1; reflexivity|].
    rewrite Pos2Nat.inj_succ. cbn [pow]. rewrite <- IH, <- Q2R_mult. apply Qeq_eqR. rewrite <- Pos.add_1_l, Qpower_plus_positive. reflexivity. }
  destruct k; cbn [Qpower powerRZ]; [unfold Q2R; cbn; lra|apply A|]. rewrite Q2R_inv, A; [reflexivity|].
  intros Z. apply Qeq_eqR in Z. rewrite A in Z. assert (0 < Q2R q) by (rewrite <- RMicromega.Q2R_0; apply Qlt_Rlt; exact P). pose proof (pow_lt (Q2R q) (Pos.to_nat p) H). rewrite RMicromega.Q2R_0 in Z. lra.
Qed.
Definition below (x : R) : Q := Qpower ratio (up (ln x / ln 1.000001) - 1).
Lemma below_pos : forall x, (0 < below x)%Q. Proof. intros x. unfold below. apply Qpower_0_lt. reflexivity. Qed.
Lemma below_R : forall x, Q2R (below x) = Rpower 1.000001 (IZR (up (ln x / ln 1.000001) - 1)).
Proof. intros x. unfold below. rewrite power_R by reflexivity. rewrite ratio_R. rewrite powerRZ_Rpower by lra. reflexivity. Qed.
Lemma below_near : forall x, 0 < x -> 0.999999 * x <= Q2R (below x) <= x.
Proof.
  intros x P. rewrite below_R. destruct (archimed (ln x / ln 1.000001)) as [U1 U2]. rewrite minus_IZR. set (n := IZR (up (ln x / ln 1.000001))) in *. pose proof ln_ratio as LR.
  assert (EX : x = Rpower 1.000001 (ln x / ln 1.000001)). { unfold Rpower. replace (ln x / ln 1.000001 * ln 1.000001) with (ln x) by (field; lra). rewrite exp_ln by exact P. reflexivity. }
  split.
  - assert (H : x <= 1.000001 * Rpower 1.000001 (n - 1)).
    { rewrite EX at 1. rewrite <- (Rpower_1 1.000001) at 3 by lra. rewrite <- Rpower_plus. apply Rle_Rpower; lra. }
    assert (0 < Rpower 1.000001 (n - 1)) by apply exp_pos. nra.
  - rewrite EX at 1. apply Rle_Rpower; lra.
Qed.
Lemma up_mono : forall a b, (a <= b)%R -> (up a <= up b)%Z.
Proof. intros a b H. destruct (archimed a) as [A1 A2]. destruct (archimed b) as [B1 B2]. apply Z.lt_succ_r. apply lt_IZR. rewrite succ_IZR. lra. Qed.
Lemma below_mono : forall x y, 0 < x -> x <= y -> (below x <= below y)%Q.
Proof.
  intros x y P L. apply Rle_Qle. rewrite !below_R. apply Rle_Rpower; [lra|]. apply IZR_le. apply Z.sub_le_mono_r. apply up_mono.
  pose proof ln_ratio. unfold Rdiv. apply Rmult_le_compat_r; [left; apply Rinv_0_lt_compat; auto|]. destruct L as [L| ->]; [left; apply ln_increasing; auto|lra].
Qed.
Definition rnd_p (x : R) : Q := if Rlt_dec 0 x then below x else if Rlt_dec x 0 then (- below (- x))%Q else 0%Q.
Lemma precise_exists : storage rnd_p /\ precise rnd_p.
Proof.
  unfold storage, precise, rnd_p. repeat split.
  - intros x y L. pose proof (below_pos x). pose proof (below_pos y). pose proof (below_pos (- x)). pose proof (below_pos (- y)).
    destruct (Rlt_dec 0 x); [destruct (Rlt_dec 0 y); [apply below_mono; lra|lra]|]. destruct (Rlt_dec x 0).
    + destruct (Rlt_dec 0 y); [Lqa.lra|]. destruct (Rlt_dec y 0); [|Lqa.lra]. assert (below (- y) <= below (- x))%Q by (apply below_mono; lra). Lqa.lra.
    + destruct (Rlt_dec 0 y); [Lqa.lra|]. destruct (Rlt_dec y 0); [lra|Lqa.lra].
  - destruct (Rlt_dec 0 0); [lra|]. reflexivity.
  - intros x P. destruct (Rlt_dec 0 x); [apply below_pos|lra].
  - intros x P. destruct (Rlt_dec 0 x); [lra|]. destruct (Rlt_dec x 0); [|lra]. pose proof (below_pos (- x)). Lqa.lra.
  - intros x. destruct (Rlt_dec 0 x) as [P|P].
    + pose proof (below_near x P). rewrite (Rabs_pos_eq x) by lra. apply Rabs_le. lra.
    + destruct (Rlt_dec x 0) as [N|N]; [|replace x with 0 by lra; rewrite RMicromega.Q2R_0, Rminus_0_r, Rabs_R0; lra].
      pose proof (below_near (- x) ltac:(lra)). rewrite Q2R_opp, (Rabs_left x) by lra. apply Rabs_le. lra.
Qed.
