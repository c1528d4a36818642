(** Lemmas about the Kraft t-z curve (tz_curves.py 17-77). *)
From Coq Require Import List Reals Lra Lia Psatz Arith.
From Verif Require Import Base ConicModel ConicSpec ConicProofs PisaModel PisaProofs ApiClayProofs AxialModel AxialSpec AxialProofs.
Import ListNotations.
Local Open Scope R_scope.

Lemma mirror_points : forall (z t : list R) (f : R -> R), length z = length t ->
  combine (map Ropp (rev (tl z)) ++ z) (map f (rev (tl t)) ++ t) = map (fun p => (- fst p, f (snd p))) (rev (tl (combine z t))) ++ combine z t.
Proof.
  intros [|a z] [|b t] f H; cbn [length] in H; try lia; [reflexivity|]. cbn [tl].
  rewrite combine_app by (rewrite !map_length, !rev_length; lia). rewrite combine_map2, combine_rev by lia. reflexivity.
Qed.
Lemma nondecreasing_opp_rev : forall l, nondecreasing l -> nondecreasing (map Ropp (rev l)).
Proof.
  intros l H i j Hij Hj. rewrite map_length, rev_length in Hj.
  rewrite !(nth_indep (map Ropp (rev l)) 0 (- 0)) by (rewrite map_length, rev_length; lia). rewrite !(map_nth Ropp), !rev_nth by lia.
  apply Ropp_le_contravar. apply H; lia.
Qed.
Lemma mirror_nd : forall a l, nondecreasing (a :: l) -> 0 <= a -> nondecreasing (map Ropp (rev l) ++ a :: l).
Proof.
  intros a l H P. apply nondecreasing_app; auto.
  - apply nondecreasing_opp_rev. intros i j Hij Hj. apply (H (Datatypes.S i) (Datatypes.S j)); cbn [length]; lia.
  - intros x y Ix Iy. apply in_map_iff in Ix. destruct Ix as (v & <- & Iv). apply in_rev in Iv.
    assert (F : forall w, In w (a :: l) -> a <= w). { intros w I. destruct (In_nth _ _ 0 I) as (k & Hk & <-). apply (H 0%nat k); lia. }
    pose proof (F v (or_intror Iv)). pose proof (F y Iy). lra.
Qed.

Section Kraft.
Variables (fmax D G0 residual tf RF zif : R) (n : nat).
Hypothesis HF : 0 < fmax. Hypothesis HD : 0 < D. Hypothesis HG : 0 < G0.
Hypothesis HR : 0 <= RF < 1. Hypothesis HZ : 1 < zif.
Let N0 := Nat.max 15 n.
Let N := if Nat.even N0 then S N0 else N0.
Let half := (half_even N - 2)%nat.
Definition kraft_z (t : R) : R := t * 0.5 * D / G0 * ln ((zif - RF * t / fmax) / (1 - RF * t / fmax)).
Definition kraft_zmax : R := fmax * D / (2 * G0) * ln ((zif - RF) / (1 - RF)).
Let tpos := linspace 0 fmax half.
Let zp := map kraft_z tpos ++ [kraft_zmax + 0.005; kraft_zmax + 0.005 + 0.005].
Let tp := tpos ++ [residual * fmax; residual * fmax].

Lemma kraft_odd : exists k, N = (2 * k + 1)%nat /\ (7 <= k)%nat.
Proof.
  clear. unfold N. assert (15 <= N0)%nat by (unfold N0; lia). destruct (Nat.even N0) eqn:E.
  - apply Nat.even_spec in E. destruct E as (k & E). exists k. lia.
  - assert (O' : Nat.odd N0 = true) by (unfold Nat.odd; rewrite E; reflexivity). apply Nat.odd_spec in O'. destruct O' as (k & O'). exists k. lia.
Qed.
Lemma kraft_half : (2 * (half + 2) - 1 = if (N mod 4 =? 3)%nat then N else N - 2)%nat /\ (6 <= half)%nat.
Proof.
  clear. destruct kraft_odd as (k & E & L). unfold half, half_even. rewrite E.
  replace ((2 * k + 1) / 2)%nat with k by (rewrite Nat.mul_comm, Nat.div_add_l by lia; cbn; lia).
  destruct (Nat.even k) eqn:Ev.
  - apply Nat.even_spec in Ev. destruct Ev as (j & Ev). replace (2 * k + 1)%nat with (1 + j * 4)%nat by lia. rewrite Nat.mod_add by lia. cbn [Nat.modulo Nat.divmod fst snd Nat.sub Nat.eqb]. lia.
  - assert (O' : Nat.odd k = true) by (unfold Nat.odd; rewrite Ev; reflexivity). apply Nat.odd_spec in O'. destruct O' as (j & O'). replace (2 * k + 1)%nat with (3 + j * 4)%nat by lia. rewrite Nat.mod_add by lia. cbn [Nat.modulo Nat.divmod fst snd Nat.sub Nat.eqb]. lia.
Qed.

Lemma ratio_range : forall t, 0 <= t <= fmax -> 0 <= RF * t / fmax <= RF.
Proof.
  intros t H. assert (0 <= t / fmax). { apply Rmult_le_pos; [lra|left; apply Rinv_0_lt_compat; auto]. }
  assert (t / fmax <= 1). { apply (Rmult_le_reg_r fmax); auto. unfold Rdiv. rewrite Rmult_assoc, Rinv_l by lra. lra. }
  replace (RF * t / fmax) with (RF * (t / fmax)) by (unfold Rdiv; ring). nra.
Qed.
Lemma log_mono : forall x y, 0 <= x -> x <= y -> y <= RF -> 0 < ln ((zif - x) / (1 - x)) <= ln ((zif - y) / (1 - y)).
Proof.
  intros x y H1 H2 H3. assert (A : forall w, w <= RF -> (zif - w) / (1 - w) = 1 + (zif - 1) * / (1 - w)) by (intros w Hw; field; lra).
  assert (I : forall w, w <= RF -> 0 < / (1 - w)) by (intros w Hw; apply Rinv_0_lt_compat; lra).
  rewrite !A by lra. pose proof (I x ltac:(lra)). pose proof (I y H3). assert (M : / (1 - x) <= / (1 - y)) by (apply Rinv_le_contravar; lra).
  split.
  - rewrite <- ln_1. apply ln_increasing; [lra|]. nra.
  - destruct (Rle_lt_or_eq_dec _ _ M) as [L|E]; [|rewrite E; apply Rle_refl]. left. apply ln_increasing; nra.
Qed.
Lemma kz_mono : forall s t, 0 <= s -> s <= t -> t <= fmax -> kraft_z s <= kraft_z t.
Proof.
  intros s t H1 H2 H3. unfold kraft_z. pose proof (ratio_range s ltac:(lra)). pose proof (ratio_range t ltac:(lra)).
  assert (L : RF * s / fmax <= RF * t / fmax). { apply Rmult_le_compat_r; [left; apply Rinv_0_lt_compat; auto|]. apply Rmult_le_compat_l; lra. }
  destruct (log_mono (RF * s / fmax) (RF * t / fmax)) as [P Q]; try lra.
  assert (C : 0 < 0.5 * D / G0) by (apply Rdiv_lt_0_compat; nra).
  replace (s * 0.5 * D / G0) with (s * (0.5 * D / G0)) by (unfold Rdiv; ring). replace (t * 0.5 * D / G0) with (t * (0.5 * D / G0)) by (unfold Rdiv; ring).
  apply Rmult_le_compat; try nra.
Qed.
Lemma kz_pos : forall t, 0 < t <= fmax -> 0 < kraft_z t.
Proof.
  intros t H. unfold kraft_z. pose proof (ratio_range t ltac:(lra)). destruct (log_mono (RF * t / fmax) (RF * t / fmax)) as [P _]; try lra.
  apply Rmult_lt_0_compat; auto. apply Rdiv_lt_0_compat; nra.
Qed.
Lemma kz_0 : kraft_z 0 = 0. Proof. clear. unfold kraft_z, Rdiv. ring. Qed.
Lemma kz_max : kraft_z fmax = kraft_zmax.
Proof. clear n N0 N half tpos zp tp residual tf. unfold kraft_z, kraft_zmax. replace (RF * fmax / fmax) with RF by (field; lra). replace 0.5 with (/ 2) by lra. field. lra. Qed.

Lemma tpos_split : exists r, tpos = 0 :: r /\ nondecreasing (0 :: r) /\ (forall t, In t r -> 0 < t <= fmax) /\ In fmax r /\ length r = (half - 1)%nat.
Proof.
  destruct kraft_half as [_ L]. destruct (linspace_ends 0 fmax half ltac:(lia)) as [E1 E2]. pose proof (linspace_length 0 fmax half) as LL. fold tpos in E1, E2, LL.
  assert (M : nondecreasing tpos) by (apply linspace_nondecr; lra).
  assert (I : forall i, (1 <= i < half)%nat -> 0 < nth i tpos 0 <= fmax).
  { intros i Hi. unfold tpos. split; [|apply (linspace_in 0 fmax half); [lra|apply nth_In; fold tpos; lia]]. rewrite linspace_nth by lia.
    assert (0 < INR i) by (apply lt_0_INR; lia). assert (0 < INR (half - 1)) by (apply lt_0_INR; lia). assert (0 < INR i / INR (half - 1)) by (apply Rdiv_lt_0_compat; auto). nra. }
  destruct tpos as [|a r] eqn:ET; [cbn [length] in LL; lia|]. cbn [length] in LL. assert (a = 0) by (cbn in E1; auto). subst a. exists r. repeat split; auto; try lia.
  - destruct (In_nth _ _ 0 H) as (i & Hi & <-). apply (I (Datatypes.S i)). lia.
  - destruct (In_nth _ _ 0 H) as (i & Hi & <-). apply (I (Datatypes.S i)). lia.
  - destruct (half - 1)%nat as [|m] eqn:EH; [lia|]. cbn [nth] in E2. rewrite <- E2. apply nth_In. lia.
Qed.
Lemma zp_split : exists r, zp = 0 :: r /\ nondecreasing (0 :: r) /\ (forall v, In v r -> 0 < v).
Proof.
  destruct tpos_split as (r & E & M & I & F & _). unfold zp. rewrite E. cbn [map app]. rewrite kz_0. eexists. split; [reflexivity|].
  assert (ZM : 0 < kraft_zmax) by (rewrite <- kz_max; apply kz_pos; lra).
  assert (B : forall t, In t (0 :: r) -> 0 <= t <= fmax) by (intros t [<-|J]; [lra|apply I in J; lra]).
  split.
  - change (0 :: map kraft_z r ++ ?l) with ((0 :: map kraft_z r) ++ l). apply nondecreasing_app.
    + rewrite <- kz_0 at 1. change (kraft_z 0 :: map kraft_z r) with (map kraft_z (0 :: r)). apply nondecreasing_map; auto. intros x y Ix Iy L. apply B in Ix. apply B in Iy. apply kz_mono; lra.
    + apply nondecreasing_cons; [intros x [<-|[]]; lra|apply nondecreasing_1].
    + intros x y Ix Iy. assert (x <= kraft_zmax). { destruct Ix as [<-|Ix]; [lra|]. apply in_map_iff in Ix. destruct Ix as (t & <- & It). apply I in It. rewrite <- kz_max. apply kz_mono; lra. }
      destruct Iy as [<-|[<-|[]]]; lra.
  - intros v J. apply in_app_iff in J. destruct J as [J|[<-|[<-|[]]]]; try lra. apply in_map_iff in J. destruct J as (t & <- & It). apply kz_pos, I; auto.
Qed.
Lemma zp_length : length zp = (half + 2)%nat /\ length tp = (half + 2)%nat.
Proof. clear. unfold zp, tp, tpos. rewrite !app_length, map_length, linspace_length. cbn [length]. lia. Qed.
Definition kraft_curve_z := map Ropp (rev (tl zp)) ++ zp.
Definition kraft_curve_t := map (fun v => - v * tf) (rev (tl tp)) ++ tp.
Lemma kraft_eq : kraft_modification fmax D G0 residual tf RF zif n = Ok (Some (kraft_curve_z, kraft_curve_t)).
Proof.
  unfold kraft_modification. fold N0. fold N. fold half. cbv zeta. rewrite !nonzero_ok by lra.
  destruct (Rlt_dec 0 ((zif - RF) / (1 - RF))) as [_|H]; [destruct (Req_EM_T fmax 0); [lra|reflexivity]|]. exfalso. apply H. apply Rdiv_lt_0_compat; lra.
Qed.
Lemma kraft_length : length kraft_curve_z = (if (N mod 4 =? 3)%nat then N else N - 2)%nat /\ length kraft_curve_t = length kraft_curve_z.
Proof.
  destruct zp_length as [A B]. destruct kraft_half as [<- _]. unfold kraft_curve_z, kraft_curve_t. rewrite !app_length, !map_length, !rev_length.
  assert (T : forall l : list R, length (tl l) = (length l - 1)%nat) by (intros [|? l]; cbn [tl length]; lia). rewrite !T, A, B. lia.
Qed.
Lemma kraft_sorted : nondecreasing kraft_curve_z.
Proof. destruct zp_split as (r & E & M & _). unfold kraft_curve_z. rewrite E. cbn [tl]. apply mirror_nd; [auto|lra]. Qed.
Lemma kraft_points : forall p, has_point kraft_curve_z kraft_curve_t p <->
  In p (combine zp tp) \/ exists q, In q (tl (combine zp tp)) /\ p = (- fst q, - snd q * tf).
Proof.
  intros p. unfold has_point, kraft_curve_z, kraft_curve_t. destruct zp_length as [A B]. rewrite (mirror_points zp tp (fun v => - v * tf)) by congruence.
  rewrite in_app_iff, in_map_iff. split; (intros [H|H]; [right|left]); auto.
  - destruct H as (q & E & I). apply in_rev in I. exists q. auto.
  - destruct H as (q & I & E). exists q. split; auto. apply in_rev. rewrite rev_involutive. auto.
Qed.
Lemma kraft_combine : combine zp tp = combine (map kraft_z tpos) tpos ++ [(kraft_zmax + 0.005, residual * fmax); (kraft_zmax + 0.005 + 0.005, residual * fmax)].
Proof. clear. unfold zp, tp. rewrite combine_app by apply map_length. reflexivity. Qed.
Lemma combine_self : forall (f : R -> R) l, combine (map f l) l = map (fun t => (f t, t)) l.
Proof. clear. intros f. induction l as [|a l IH]; [reflexivity|]. cbn. rewrite IH. reflexivity. Qed.
Lemma kraft_pos_points : forall p, In p (combine zp tp) <-> (exists t, In t tpos /\ p = (kraft_z t, t)) \/ p = (kraft_zmax + 0.005, residual * fmax) \/ p = (kraft_zmax + 0.005 + 0.005, residual * fmax).
Proof.
  clear. intros p. rewrite kraft_combine, combine_self, in_app_iff, in_map_iff. cbn [In]. split.
  - intros [(t & E & I)|[E|[E|[]]]]; [left; exists t; auto|right; left; auto|right; right; auto].
  - intros [(t & I & E)|[E|E]]; [left; exists t; auto|right; left; auto|right; right; left; auto].
Qed.
Lemma kraft_tl_points : forall p, In p (tl (combine zp tp)) <-> (exists t, In t tpos /\ 0 < t /\ p = (kraft_z t, t)) \/ p = (kraft_zmax + 0.005, residual * fmax) \/ p = (kraft_zmax + 0.005 + 0.005, residual * fmax).
Proof.
  intros p. rewrite kraft_combine, combine_self. destruct tpos_split as (r & E & _ & I & _). rewrite E. cbn [map app tl]. rewrite in_app_iff, in_map_iff. cbn [In]. split.
  - intros [(t & X & J)|[X|[X|[]]]]; [left; exists t|right; left; auto|right; right; auto]. split; [auto|]. split; [apply I; auto|auto].
  - intros [(t & J & P & X)|[X|X]]; [left; exists t; split; auto; destruct J as [<-|J]; [lra|auto]|right; left; auto|right; right; left; auto].
Qed.
Lemma fmax_in : In fmax tpos.
Proof. destruct tpos_split as (r & E & _ & _ & F & _). rewrite E. right. auto. Qed.
Lemma tpos_range : forall t, In t tpos -> 0 <= t <= fmax.
Proof. intros t I. apply (linspace_in 0 fmax half); [lra|exact I]. Qed.
Lemma zmax_pos : 0 < kraft_zmax.
Proof. rewrite <- kz_max. apply kz_pos. lra. Qed.
End Kraft.
