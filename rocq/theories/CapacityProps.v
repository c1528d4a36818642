(** Properties C101, C102 and C103: the axial capacity that a model reports. *)
From Coq Require Import List Bool Arith ZArith QArith Qabs Reals Qreals Permutation Lia Lqa Lra.
From Verif Require Import Base PileModel PileSpec MeshModel MeshSpec StressModel StressSpec StressProps GridProofs
  CreateModel CreateProofs CreateProps ApiClayProofs AxialModel AxialSpec AxialProofs CapacityModel CapacitySpec CapacityProofs.
Import ListNotations.
Local Open Scope R_scope.

(** C101: the shaft resistance is the friction integrated along the pile by the trapezoidal rule, plus a term
    for every node where both the friction and the height of the elements jump. *)
Theorem C101_shaft_resistance : forall l p b dt dq ta fp xs sd st x c m co, in_soil l p b dt dq ta fp xs sd st x c m co -> distributed_axial st = true ->
  let total comp := trapezoids (end_capacity comp xs st co co) (elems st) + steps (end_capacity comp xs st co co) (elems st) in
  shaft_resistance (nodes_of m) (create_springs st (map (with_springs dt dq ta fp) xs)) = Ok (Some (total true, total false)).
Proof. intros. eapply shaft_capacity; eauto. Qed.
Print Assumptions C101_shaft_resistance.

Lemma Rsum_0 : forall (f : nat -> R) l, (forall i, In i l -> f i = 0) -> Rsum (map f l) = 0.
Proof. intros f. induction l as [|a t IH]; intros H; [reflexivity|]. cbn [map Rsum fold_right]. unfold Rsum in IH. rewrite IH by (intros; apply H; right; auto). rewrite H by (left; auto). lra. Qed.

(** Elements of one height: the integral itself *)
Theorem C101_uniform_mesh : forall l p b dt dq ta fp xs sd st x c m co h, in_soil l p b dt dq ta fp xs sd st x c m co -> distributed_axial st = true ->
  (forall e, In e (elems st) -> (fst e - snd e == h)%Q) ->
  shaft_resistance (nodes_of m) (create_springs st (map (with_springs dt dq ta fp) xs)) =
    Ok (Some (trapezoids (end_capacity true xs st co co) (elems st), trapezoids (end_capacity false xs st co co) (elems st))).
Proof.
  intros l p b dt dq ta fp xs sd st x c m co h S D U. rewrite (shaft_capacity _ _ _ _ _ _ _ _ _ _ _ _ _ _ S D).
  assert (T : forall i, (i < length (elems st))%nat -> tall (elems st) i = Q2R h) by (intros i Hi; unfold tall; apply Qeq_eqR, U, nth_In; auto).
  assert (Z : forall cap, steps cap (elems st) = 0). { intros cap. unfold steps. apply Rsum_0. intros i I. apply in_seq in I. rewrite !T by lia. unfold Rdiv. ring. }
  rewrite !Z, !Rplus_0_r. reflexivity.
Qed.
Print Assumptions C101_uniform_mesh.

(** Friction without jumps: the integral itself, on any mesh *)
Theorem C101_continuous_friction : forall l p b dt dq ta fp xs sd st x c m co, in_soil l p b dt dq ta fp xs sd st x c m co -> distributed_axial st = true ->
  (forall comp i, (S i < length (elems st))%nat -> end_capacity comp xs st co co i 1 = end_capacity comp xs st co co (S i) 0) ->
  shaft_resistance (nodes_of m) (create_springs st (map (with_springs dt dq ta fp) xs)) =
    Ok (Some (trapezoids (end_capacity true xs st co co) (elems st), trapezoids (end_capacity false xs st co co) (elems st))).
Proof.
  intros l p b dt dq ta fp xs sd st x c m co S D U. rewrite (shaft_capacity _ _ _ _ _ _ _ _ _ _ _ _ _ _ S D).
  assert (Z : forall comp, steps (end_capacity comp xs st co co) (elems st) = 0). { intros comp. unfold steps. apply Rsum_0. intros i I. apply in_seq in I. rewrite (U comp i) by lia. unfold Rdiv. ring. }
  rewrite !Z, !Rplus_0_r. reflexivity.
Qed.
Print Assumptions C101_continuous_friction.

Theorem C101_without_axial_springs : forall l p b dt dq ta fp xs sd st x c m co, in_soil l p b dt dq ta fp xs sd st x c m co -> distributed_axial st = false ->
  shaft_resistance (nodes_of m) (create_springs st (map (with_springs dt dq ta fp) xs)) = Ok (Some (0, 0)).
Proof. intros. eapply no_shaft; eauto. Qed.
Print Assumptions C101_without_axial_springs.

(** A pile of two sections in a clay of 50 kPa under a layer without axial model; elements of 1 m and 2 m. *)
Definition clay_w : clay_axial := mkClayAxial 50 50 PlugNone 1 (MNum 1) (MNum 1) 1 1 0.9 1.
Definition layers_w (s : axial_soil) : list axial_layer := [mkAL (mkLayer (-4) (-20) 19) None (Some s); mkAL (mkLayer 0 (-4) 18) None None].
Definition down_w (s : axial_soil) : list axial_layer := [mkAL (mkLayer 0 (-4) 18) None None; mkAL (mkLayer (-4) (-20) 19) None (Some s)].
Definition draw_w : draw := fun _ _ => (fun _ => 0, seq 0 15).

Lemma draw_w_fair : fair draw_w /\ fair_tip draw_w.
Proof.
  assert (A : forall zs added, length zs = 15%nat -> argsort (backbone_z zs added 15) (seq 0 15)).
  { intros zs added L. assert (E : length (backbone_z zs added 15) = 15%nat).
    { unfold backbone_z. rewrite rsort_length, app_length, map_length, seq_length, L. reflexivity. }
    rewrite <- E at 2. apply argsort_id. apply rsort_nd. }
  split; intros m a; cbn [draw_w fst snd]; (split; [intros; lra|]).
  - destruct m; apply A; reflexivity.
  - apply A. reflexivity.
Qed.

Lemma witness : forall s dt dq, admissible s -> fair dt -> fair_tip dq ->
  in_soil ex_l ex_p (-8) dt dq 1 2 (layers_w s) (map (with_springs dt dq 1 2) (down_w s)) set1 [(-1)%Q] 2 mesh1 (fun _ => 1%Q).
Proof.
  intros s dt dq A F1 F2. assert (EL : map x_layer (layers_w s) = ex_ls) by reflexivity.
  assert (EX : forall y, requested ex_p (-8) (Some ex_ls) [(-1)%Q] y -> four_decimals y).
  { intros y H. apply ex_requested in H. destruct H as [H|[H|[H|[H|[H|H]]]]].
    - exists 20000%Z; rewrite H; reflexivity.
    - exists (-30000)%Z; rewrite H; reflexivity.
    - exists (-80000)%Z; rewrite H; reflexivity.
    - exists 0%Z; rewrite H; reflexivity.
    - exists (-40000)%Z; rewrite H; reflexivity.
    - exists (-10000)%Z; rewrite H; reflexivity. }
  unfold in_soil. split.
  { unfold fits. rewrite !layers_of_springs, EL. split; [intros y [<-|[<-|[]]]; reflexivity|]. split; [vm_compute; reflexivity|]. split; [reflexivity|]. split; [reflexivity|].
    split; [apply perm_swap|]. split; [cbn; repeat split; reflexivity|]. split; [vm_compute; discriminate|]. split; [reflexivity|]. split; [discriminate|].
    split; [intros y [<-|[]]; discriminate|]. split; [discriminate|]. split; [vm_compute; reflexivity|]. split; [reflexivity|exact EX]. }
  rewrite EL. split; [intros y [<-|[<-|[]]]; reflexivity|]. split; [vm_compute; reflexivity|]. split; [left; right; right; exists (-1)%Q; split; [left|]; reflexivity|].
  split; [|split; [|auto]].
  - intros i Hi. assert (C : (i = 0 \/ i = 1 \/ i = 2 \/ i = 3 \/ i = 4 \/ i = 5)%nat) by (vm_compute in Hi; lia).
    destruct C as [->|[->|[->|[->|[->| ->]]]]]; (split; [vm_compute; reflexivity|]); (split; [reflexivity|]); eexists; (split; [vm_compute; reflexivity|reflexivity]).
  - intros y t [<-|[<-|[]]] E; cbn in E; congruence.
Qed.

Lemma clay_w_admissible : admissible (Clay clay_w).
Proof. cbn. split; [exists 1, 1; repeat split; lra|]. lra. Qed.

Lemma clay_friction_pos : forall sig Su, 0 < Su -> 0 < clay_friction sig Su 1.
Proof. intros sig Su H. unfold clay_friction. apply Rmin_glb_lt; [|lra]. apply Rmult_lt_0_compat; [lra|]. destruct (Rle_dec Su sig); apply Rmult_lt_0_compat; apply exp_pos. Qed.

Lemma witness_layers : forall s, let at_ i := layer_of (layers_w s) (nth i (elems set1) (0, 0)%Q) in
  at_ 0%nat = None /\ (forall i, (1 <= i < 4)%nat -> at_ i = Some (mkAL (mkLayer 0 (-4) 18) None None)) /\
  (forall i, (4 <= i < 6)%nat -> at_ i = Some (mkAL (mkLayer (-4) (-20) 19) None (Some s))).
Proof.
  intros s. cbv zeta. split; [vm_compute; reflexivity|]. split; intros i Hi.
  - assert (C : (i = 1 \/ i = 2 \/ i = 3)%nat) by lia. destruct C as [->|[->| ->]]; vm_compute; reflexivity.
  - assert (C : (i = 4 \/ i = 5)%nat) by lia. destruct C as [->| ->]; vm_compute; reflexivity.
Qed.

Lemma witness_capacity : forall comp ci co, (forall i j, (i < 4)%nat -> end_capacity comp (layers_w (Clay clay_w)) set1 co ci i j = 0) /\
  (co 4%nat = co 5%nat -> ci 4%nat = ci 5%nat -> end_capacity comp (layers_w (Clay clay_w)) set1 co ci 4 1 = end_capacity comp (layers_w (Clay clay_w)) set1 co ci 5 0) /\
  ((0 < co 4%nat)%Q -> (0 <= ci 4%nat)%Q -> 0 < end_capacity comp (layers_w (Clay clay_w)) set1 co ci 4 0).
Proof.
  intros comp ci co. destruct (witness_layers (Clay clay_w)) as (A & B & C). split; [|split].
  - intros i j Hi. unfold end_capacity. destruct i; [rewrite A; reflexivity|]. rewrite B by lia. reflexivity.
  - intros E1 E2. unfold end_capacity. rewrite !C by lia. cbn [x_soil]. rewrite E1, E2.
    assert (Z : snd (nth 4 (elems set1) (0, 0)%Q) = fst (nth 5 (elems set1) (0, 0)%Q)) by (vm_compute; reflexivity).
    cbn [Nat.eqb]. rewrite Z. reflexivity.
  - intros H1 H2. unfold end_capacity. rewrite C by lia. cbn [x_soil]. unfold line_capacity, sliding_perimeter. cbn [unit_friction soil_plug].
    apply Q2R_pos in H1. apply Q2R_nn in H2. assert (F : friction_factor (Clay clay_w) = 1 /\ tension_factor (Clay clay_w) = 1) by (split; reflexivity). destruct F as [-> ->].
    assert (P : plugged comp (ca_plug clay_w) = false) by reflexivity. rewrite P.
    apply Rmult_lt_0_compat; [|lra]. apply Rmult_lt_0_compat; [|destruct comp; lra]. apply Rmult_lt_0_compat; [|lra]. apply clay_friction_pos. unfold between. cbn [clay_w ca_Su_top ca_Su_bottom]. lra.
Qed.

Lemma witness_heights : length (elems set1) = 6%nat /\ tall (elems set1) 3 = 1 /\ tall (elems set1) 4 = 2 /\ tall (elems set1) 5 = 2.
Proof.
  split; [vm_compute; reflexivity|]. unfold tall.
  assert (E : forall x n, (x == inject_Z n)%Q -> Q2R x = IZR n) by (intros x n H; rewrite (Qeq_eqR _ _ H); unfold Q2R, inject_Z; cbn; lra).
  split; [apply E; vm_compute; reflexivity|]. split; apply E; vm_compute; reflexivity.
Qed.

(** Full statement: the shaft resistance is the integral of the friction.  Not where layers of different
    friction meet at elements of different heights: here it is less by half the friction of a metre. *)
Theorem C101_integral_refuted : exists l p b dt dq ta fp xs sd st x c m co comp tens, in_soil l p b dt dq ta fp xs sd st x c m co /\ distributed_axial st = true /\
  shaft_resistance (nodes_of m) (create_springs st (map (with_springs dt dq ta fp) xs)) = Ok (Some (comp, tens)) /\
  comp < trapezoids (end_capacity true xs st co co) (elems st).
Proof.
  destruct draw_w_fair as [F1 F2]. pose proof (witness (Clay clay_w) draw_w draw_w clay_w_admissible F1 F2) as W.
  exists ex_l, ex_p, (-8)%Q, draw_w, draw_w, 1%Q, 2%Q. do 9 eexists. split; [exact W|]. split; [reflexivity|].
  split; [apply (C101_shaft_resistance _ _ _ _ _ _ _ _ _ _ _ _ _ _ W eq_refl)|].
  assert (ST : steps (end_capacity true (layers_w (Clay clay_w)) set1 (fun _ => 1%Q) (fun _ => 1%Q)) (elems set1) < 0); [|lra].
  destruct (witness_capacity true (fun _ => 1%Q) (fun _ => 1%Q)) as (Z & E & P). specialize (E eq_refl eq_refl). specialize (P eq_refl ltac:(discriminate)).
  destruct witness_heights as (L & T3 & T4 & T5). unfold steps. rewrite L. cbn [Nat.sub seq map Rsum fold_right].
  rewrite !Z by lia. rewrite T3, T4, T5, E. lra.
Qed.
Print Assumptions C101_integral_refuted.

(** C102: the tip resistance *)
Theorem C102_tip_resistance : forall l p b dt dq ta fp xs sd st x c m co, in_soil l p b dt dq ta fp xs sd st x c m co -> base_axial st = true -> (0 <= ta)%Q -> (0 <= fp)%Q ->
  tip_resistance (create_springs st (map (with_springs dt dq ta fp) xs)) = Ok (Some (tip_capacity xs st ta fp)).
Proof. intros. eapply tip_bearing; eauto. Qed.
Print Assumptions C102_tip_resistance.

Theorem C102_without_base_spring : forall l p b dt dq ta fp xs sd st x c m co, in_soil l p b dt dq ta fp xs sd st x c m co -> base_axial st = false ->
  tip_resistance (create_springs st (map (with_springs dt dq ta fp) xs)) = Ok (Some 0).
Proof. intros. eapply no_tip; eauto. Qed.
Print Assumptions C102_without_base_spring.

Example C102_case : exists l p b dt dq xs sd st x c m co, in_soil l p b dt dq 1 2 xs sd st x c m co /\ base_axial st = true /\ tip_capacity xs st 1 2 = 9 * 50.
Proof.
  destruct draw_w_fair as [F1 F2]. exists ex_l, ex_p, (-8)%Q, draw_w, draw_w. do 7 eexists. split; [apply (witness (Clay clay_w)); auto using clay_w_admissible|]. split; [reflexivity|].
  destruct (witness_layers (Clay clay_w)) as (_ & _ & C). unfold tip_capacity. assert (E : last (elems set1) (0, 0)%Q = nth 5 (elems set1) (0, 0)%Q) by (vm_compute; reflexivity). rewrite E, C by lia.
  cbn [x_soil unit_bearing soil_plug clay_w ca_plug plugged bearing_factor ca_Qm]. unfold between. cbn [clay_w ca_Su_top ca_Su_bottom ca_Qm]. replace (Q2R 1) with 1 by (unfold Q2R; cbn; lra). replace (50 - 50) with 0 by lra. rewrite Rmult_0_l. lra.
Qed.

(** C103: friction on the inside of the pile *)
Lemma Rsum_le : forall (f g : nat -> R) l, (forall i, In i l -> f i <= g i) -> Rsum (map f l) <= Rsum (map g l) /\ ((exists i, In i l /\ f i < g i) -> Rsum (map f l) < Rsum (map g l)).
Proof.
  intros f g. induction l as [|a t IH]; intros H; [split; [apply Rle_refl|intros (i & [] & _)]|]. cbn [map Rsum fold_right].
  destruct IH as [A B]; [intros; apply H; right; auto|]. fold (Rsum (map f t)). fold (Rsum (map g t)). specialize (H a (or_introl eq_refl)). split; [lra|].
  intros (i & [<-|I] & L); [lra|]. assert (Rsum (map f t) < Rsum (map g t)) by (apply B; eauto). lra.
Qed.

(** Plugged piles: the perimeter inside plays no role. *)
Theorem C103_plugged_partial : forall comp xs st co ci i j, (forall y s, In y xs -> x_soil y = Some s -> plugged comp (soil_plug s) = true) ->
  end_capacity comp xs st co co i j = end_capacity comp xs st co ci i j.
Proof.
  intros comp xs st co ci i j H. unfold end_capacity. destruct (layer_of xs _) as [y|] eqn:E; [|reflexivity]. destruct (x_soil y) as [s|] eqn:X; [|reflexivity].
  unfold layer_of in E. apply find_some in E. unfold line_capacity. rewrite (H y s); [reflexivity| |exact X]. apply E.
Qed.
Print Assumptions C103_plugged_partial.

(** Full statement: the inside of the pile counts with its own perimeter.  In every model of an open pile
    that is not plugged in compression the reported resistance is too large. *)
Theorem C103_inner_perimeter_refuted : forall l p b dt dq ta fp xs sd st x c m co ci h, in_soil l p b dt dq ta fp xs sd st x c m co -> distributed_axial st = true ->
  (forall e, In e (elems st) -> (fst e - snd e == h)%Q) -> (forall i, (i < length (elems st))%nat -> (0 <= ci i < co i)%Q) ->
  (exists i y s, (i < length (elems st))%nat /\ layer_of xs (nth i (elems st) (0, 0)%Q) = Some y /\ x_soil y = Some s /\ plugged true (soil_plug s) = false /\ 0 < end_capacity true xs st co ci i 0) ->
  exists comp tens, shaft_resistance (nodes_of m) (create_springs st (map (with_springs dt dq ta fp) xs)) = Ok (Some (comp, tens)) /\
    trapezoids (end_capacity true xs st co ci) (elems st) < comp.
Proof.
  intros l p b dt dq ta fp xs sd st x c m co ci h S D U CI (i0 & y0 & s0 & I0 & L0 & X0 & P0 & C0).
  eexists; eexists. split; [eapply C101_uniform_mesh; eauto|].
  assert (HT : forall i, (i < length (elems st))%nat -> 0 < tall (elems st) i).
  { intros i Hi. unfold tall. apply Q2R_pos. destruct (own_layer _ _ _ _ _ _ _ _ _ _ _ _ _ _ S i Hi) as [A _]. Lqa.lra. }
  assert (LE : forall i j, (i < length (elems st))%nat -> (j < 2)%nat -> end_capacity true xs st co ci i j <= end_capacity true xs st co co i j /\
    (forall y s, layer_of xs (nth i (elems st) (0, 0)%Q) = Some y -> x_soil y = Some s -> plugged true (soil_plug s) = false -> 0 < end_capacity true xs st co ci i j -> end_capacity true xs st co ci i j < end_capacity true xs st co co i j)).
  { intros i j Hi Hj. destruct (stored_capacity _ _ _ _ _ _ _ _ _ _ _ _ _ _ S D i j Hi Hj) as (_ & _ & _ & _ & N & _). revert N. unfold end_capacity.
    destruct (layer_of xs (nth i (elems st) (0, 0)%Q)) as [y|]; [|intros _; split; [apply Rle_refl|discriminate]]. destruct (x_soil y) as [s|] eqn:XS; [|intros _; split; [apply Rle_refl|congruence]].
    unfold line_capacity. set (k := unit_friction _ _ _ * friction_factor s * 1). destruct (CI i Hi) as [Q1 Q2]. apply Q2R_nn in Q1. apply Qlt_Rlt in Q2. unfold sliding_perimeter.
    destruct (plugged true (soil_plug s)) eqn:PL; intros N.
    - split; [lra|]. intros y' s' E1 E2 E3. injection E1 as <-. congruence.
    - assert (K : 0 <= k). { apply Rnot_lt_le. intros K. assert (k * (Q2R (co i) + Q2R (co i)) < 0) by nra. lra. } split; [nra|]. intros y' s' _ _ _ Pk. assert (0 < k) by nra. nra. }
  unfold trapezoids. apply Rsum_le.
  - intros i Hi. apply in_seq in Hi. destruct (LE i 0%nat ltac:(lia) ltac:(lia)) as [A _]. destruct (LE i 1%nat ltac:(lia) ltac:(lia)) as [B _]. pose proof (HT i ltac:(lia)). unfold Rdiv. apply Rmult_le_compat_r; [lra|]. apply Rmult_le_compat_l; lra.
  - exists i0. split; [apply in_seq; lia|]. destruct (LE i0 0%nat I0 ltac:(lia)) as [_ A]. specialize (A y0 s0 L0 X0 P0 C0). destruct (LE i0 1%nat I0 ltac:(lia)) as [B _]. pose proof (HT i0 I0).
    unfold Rdiv. apply Rmult_lt_compat_r; [lra|]. apply Rmult_lt_compat_l; lra.
Qed.
Print Assumptions C103_inner_perimeter_refuted.

(** An open pile of outer perimeter 3 m and inner perimeter 2 m, with elements of 2 m *)
Definition set4 : setting := {|
  distributed_lateral := true; distributed_moment := true; base_shear := true; base_moment := true; distributed_axial := true; base_axial := true;
  ground := 0; soil_bottom := -20; water := -4; tip := -8; elems := elements_of mesh3;
  sig_top := match stress ex_ls 0 (-4) (elements_of mesh3) with Ok (t, _) => t | Err _ => [] end;
  sig_bottom := match stress ex_ls 0 (-4) (elements_of mesh3) with Ok (_, b) => b | Err _ => [] end;
  width := width set3; outer := outer set3; inner := inner set3 |}.

Example C103_case : exists l p b dt dq ta fp xs sd st x c m co ci h, in_soil l p b dt dq ta fp xs sd st x c m co /\ distributed_axial st = true /\
  (forall e, In e (elems st) -> (fst e - snd e == h)%Q) /\ (forall i, (i < length (elems st))%nat -> (0 <= ci i < co i)%Q /\ inner st i = Some (ci i)) /\
  (exists i y s, (i < length (elems st))%nat /\ layer_of xs (nth i (elems st) (0, 0)%Q) = Some y /\ x_soil y = Some s /\ plugged true (soil_plug s) = false /\ 0 < end_capacity true xs st co ci i 0).
Proof.
  destruct draw_w_fair as [F1 F2].
  exists tube, tube, (-8)%Q, draw_w, draw_w, 1%Q, 2%Q, (layers_w (Clay clay_w)), (map (with_springs draw_w draw_w 1 2) (down_w (Clay clay_w))), set4, [], 2%Q, mesh3, (fun _ => 3%Q), (fun _ => 2%Q), 2%Q.
  assert (CASE : forall i, (i < length (elems set4))%nat -> (i = 0 \/ i = 1 \/ i = 2 \/ i = 3 \/ i = 4)%nat) by (intros i Hi; vm_compute in Hi; lia).
  split.
  { unfold in_soil. assert (EL : map x_layer (layers_w (Clay clay_w)) = ex_ls) by reflexivity. assert (LW : layers_w (Clay clay_w) = [mkAL (mkLayer (-4) (-20) 19) None (Some (Clay clay_w)); mkAL (mkLayer 0 (-4) 18) None None]) by reflexivity.
    pose proof set3_fits as (_ & _ & _ & _ & _ & _ & _ & _ & _ & _ & _ & MM & _ & G). change (map s_layer lays) with ex_ls in *. split.
    - unfold fits. rewrite !layers_of_springs, EL. split; [intros y [<-|[]]; reflexivity|]. split; [vm_compute; reflexivity|]. split; [reflexivity|]. split; [reflexivity|].
      split; [apply perm_swap|]. split; [cbn; repeat split; reflexivity|]. split; [vm_compute; discriminate|]. split; [reflexivity|]. split; [discriminate|].
      split; [intros y []|]. split; [discriminate|]. split; [exact MM|]. split; [reflexivity|exact G].
    - rewrite EL. split; [intros y [<-|[<-|[]]]; reflexivity|]. split; [vm_compute; reflexivity|].
      split. { left. right. left. exists ex_ls, (mkLayer 0 (-4) 18). split; [reflexivity|]. split; [right; left; reflexivity|]. split; [right; reflexivity|discriminate]. }
      split; [|split; [|auto]].
      + intros i Hi. destruct (CASE i Hi) as [->|[->|[->|[->| ->]]]]; (split; [vm_compute; reflexivity|]); (split; [reflexivity|]); eexists; (split; [vm_compute; reflexivity|reflexivity]).
      + intros y t [<-|[<-|[]]] E; cbn in E; [|discriminate]. injection E as <-. apply clay_w_admissible. }
  split; [reflexivity|]. split.
  { intros e I. apply (In_nth _ _ (0, 0)%Q) in I. destruct I as (i & Hi & <-). destruct (CASE i Hi) as [->|[->|[->|[->| ->]]]]; vm_compute; reflexivity. }
  split. { intros i Hi. split; [split; [discriminate|reflexivity]|]. destruct (CASE i Hi) as [->|[->|[->|[->| ->]]]]; vm_compute; reflexivity. }
  exists 3%nat. assert (LO : forall s, layer_of (layers_w s) (nth 3 (elems set4) (0, 0)%Q) = Some (mkAL (mkLayer (-4) (-20) 19) None (Some s))) by (intros s; vm_compute; reflexivity).
  do 2 eexists. split; [vm_compute; lia|]. split; [apply LO|]. split; [reflexivity|]. split; [reflexivity|].
  unfold end_capacity. rewrite LO. cbn [x_soil]. unfold line_capacity, sliding_perimeter. cbn [unit_friction soil_plug].
  assert (F : friction_factor (Clay clay_w) = 1) by reflexivity. rewrite F.
  assert (P : plugged true (ca_plug clay_w) = false) by reflexivity. rewrite P. assert (0 < Q2R 2 /\ 0 < Q2R 3) by (split; apply Q2R_pos; reflexivity).
  apply Rmult_lt_0_compat; [|lra]. apply Rmult_lt_0_compat; [|lra]. apply Rmult_lt_0_compat; [|lra]. apply clay_friction_pos. unfold between. cbn [clay_w ca_Su_top ca_Su_bottom]. lra.
Qed.
