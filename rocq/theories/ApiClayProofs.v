(** Lemmas for the clay p-y curves. *)
From Coq Require Import List Reals Lra Lia Psatz Permutation.
From Verif Require Import Base ConicModel ConicSpec ConicProofs PisaModel PisaProofs ApiSandModel ApiClayModel ApiClaySpec.
Import ListNotations.
Local Open Scope R_scope.

(** Sorting *)
Lemma rinsert_perm : forall x l, Permutation (rinsert x l) (x :: l).
Proof.
  induction l as [|a t IH]; simpl; [apply Permutation_refl|]. destruct (Rle_dec x a); [apply Permutation_refl|].
  eapply Permutation_trans; [apply perm_skip, IH|apply perm_swap].
Qed.
Lemma rsort_perm : forall l, Permutation (rsort l) l.
Proof. induction l as [|a t IH]; simpl; [constructor|]. eapply Permutation_trans; [apply rinsert_perm|apply perm_skip, IH]. Qed.
Lemma nondecreasing_tl : forall a l, nondecreasing (a :: l) -> nondecreasing l.
Proof. intros a l H i j Hi Hj. exact (H (S i) (S j) ltac:(lia) ltac:(simpl; lia)). Qed.
Lemma nondecreasing_hd : forall a l x, nondecreasing (a :: l) -> In x l -> a <= x.
Proof. intros a l x H I. destruct (In_nth _ _ 0 I) as (i & Hi & <-). exact (H 0%nat (S i) ltac:(lia) ltac:(simpl; lia)). Qed.
Lemma rinsert_nd : forall x l, nondecreasing l -> nondecreasing (rinsert x l).
Proof.
  induction l as [|a t IH]; intros H; simpl; [apply nondecreasing_1|]. destruct (Rle_dec x a) as [L|L].
  - apply nondecreasing_cons; auto. intros z [<-|I]; auto. pose proof (nondecreasing_hd _ _ _ H I). lra.
  - apply nondecreasing_cons; [|apply IH; eapply nondecreasing_tl; eauto].
    intros z I. apply (Permutation_in _ (rinsert_perm x t)) in I. destruct I as [<-|I]; [lra|]. eapply nondecreasing_hd; eauto.
Qed.
Lemma rsort_nd : forall l, nondecreasing (rsort l).
Proof. induction l as [|a t IH]; simpl; [intros i j _ Hj; simpl in Hj; lia|]. apply rinsert_nd, IH. Qed.
Lemma rsort_in : forall l x, In x (rsort l) <-> In x l.
Proof. intros l x. split; apply Permutation_in; [apply rsort_perm|apply Permutation_sym, rsort_perm]. Qed.
Lemma rsort_length : forall l, length (rsort l) = length l.
Proof. intros l. apply Permutation_length, rsort_perm. Qed.

(** First and last elements of sorted lists. *)
Lemma nd_first : forall l m, nondecreasing l -> In m l -> (forall x, In x l -> m <= x) -> nth 0 l 0 = m.
Proof.
  intros l m H I Lo. destruct (In_nth _ _ 0 I) as (i & Hi & E). pose proof (H 0%nat i ltac:(lia) Hi) as L. rewrite E in L.
  assert (m <= nth 0 l 0) by (apply Lo, nth_In; lia). lra.
Qed.
Lemma nd_last_ge : forall l x, nondecreasing l -> In x l -> x <= last l 0.
Proof. intros l x H I. destruct (In_nth _ _ 0 I) as (i & Hi & <-). rewrite last_nth0. apply H; lia. Qed.
Lemma last_in : forall (l : list R), l <> [] -> In (last l 0) l.
Proof. intros l H. rewrite last_nth0. apply nth_In. destruct l; [contradiction|simpl; lia]. Qed.

(** The grid *)
Lemma filter_le : forall (f : R -> bool) l, (length (filter f l) <= length l)%nat.
Proof. induction l as [|a t IH]; simpl; [lia|]. destruct (f a); simpl; lia. Qed.
Section Grid.
Variables (ymax : R) (grid : list R) (added : nat -> R) (n : nat).
Hypothesis I0 : In 0 grid.
Hypothesis IY : In ymax grid.
Hypothesis Y0 : 0 <= ymax.
Hypothesis G0 : forall v, In v grid -> 0 <= v.
Hypothesis A0 : forall i, 0 <= added i.
Hypothesis LN : (length grid <= n)%nat.
Let kept := filter (fun v => if Rle_dec v ymax then true else false) grid.
Let y := clay_grid ymax grid added n.

Lemma kept_in : forall v, In v kept <-> In v grid /\ v <= ymax.
Proof. intros v. unfold kept. rewrite filter_In. destruct (Rle_dec v ymax); intuition (auto; discriminate). Qed.
Lemma kept_le : (length kept <= n)%nat.
Proof. pose proof (filter_le (fun v => if Rle_dec v ymax then true else false) grid). unfold kept. lia. Qed.
Lemma grid_in : forall v, In v y <-> (In v grid /\ v <= ymax) \/ exists i, (i < n - length kept)%nat /\ v = added i.
Proof.
  intros v. unfold y, clay_grid. fold kept. rewrite rsort_in, in_app_iff, kept_in, in_map_iff. split; (intros [H|H]; [left; exact H|right]).
  - destruct H as (i & E & I). apply in_seq in I. exists i. split; [lia|auto].
  - destruct H as (i & L & E). exists i. split; [auto|apply in_seq; lia].
Qed.
Lemma grid_length : length y = n.
Proof. unfold y, clay_grid. fold kept. rewrite rsort_length, app_length, map_length, seq_length. pose proof kept_le. lia. Qed.
Lemma grid_sorted : nondecreasing y. Proof. apply rsort_nd. Qed.
Lemma grid_nonneg : forall v, In v y -> 0 <= v.
Proof. intros v I. apply grid_in in I. destruct I as [[I _]|(i & _ & ->)]; auto. Qed.
Lemma grid_first : nth 0 y 0 = 0.
Proof. apply nd_first; [apply grid_sorted| |apply grid_nonneg]. apply grid_in. left. auto. Qed.
Lemma grid_end : In ymax y. Proof. apply grid_in. left. split; [auto|lra]. Qed.
Lemma grid_last : (forall i, added i <= ymax) -> last y 0 = ymax /\ forall v, In v y -> v <= ymax.
Proof.
  intros A1. assert (B : forall v, In v y -> v <= ymax) by (intros v I; apply grid_in in I; destruct I as [[_ I]|(i & _ & ->)]; auto).
  split; [|exact B]. apply Rle_antisym.
  - apply B, last_in. intros E. pose proof grid_end. rewrite E in H. destruct H.
  - apply nd_last_ge; [apply grid_sorted|apply grid_end].
Qed.
End Grid.

(** The normalised curves *)
Lemma Rpower_mono : forall a x y, 0 <= a -> 0 < x -> x <= y -> Rpower x a <= Rpower y a.
Proof.
  intros a x y Ha Hx Hy. unfold Rpower. destruct (Rle_lt_or_eq_dec x y Hy) as [L| ->]; [|lra].
  pose proof (ln_increasing x y Hx L). assert (a * ln x <= a * ln y) by (apply Rmult_le_compat_l; lra).
  destruct (Rle_lt_or_eq_dec _ _ H0) as [M|E]; [left; apply exp_increasing; auto|rewrite E; lra].
Qed.
Lemma rise_0 : rise 0 = 0. Proof. unfold rise. destruct (Rlt_dec 0 0); lra. Qed.
Lemma rise_nonneg : forall r, 0 <= rise r.
Proof. intros r. unfold rise. destruct (Rlt_dec 0 r); [|lra]. pose proof (exp_pos (0.33 * ln r)). unfold Rpower. lra. Qed.
Lemma rise_mono : forall r s, r <= s -> rise r <= rise s.
Proof.
  intros r s H. pose proof (rise_nonneg s). unfold rise at 1. destruct (Rlt_dec 0 r); [|auto]. unfold rise. destruct (Rlt_dec 0 s); [|lra].
  pose proof (Rpower_mono 0.33 r s ltac:(lra) r0 H). lra.
Qed.
Lemma rise_1 : rise 1 = 1/2.
Proof. unfold rise. destruct (Rlt_dec 0 1); [|lra]. unfold Rpower. rewrite ln_1, Rmult_0_r, exp_0. lra. Qed.
Lemma pow_le_Rpower : forall x c, 0 < x -> 0 < c -> x ^ 33 <= c ^ 100 -> Rpower x 0.33 <= c.
Proof.
  intros x c Hx Hc H. destruct (Rle_lt_dec (Rpower x 0.33) c) as [L|L]; [exact L|exfalso].
  assert (E : Rpower x 0.33 ^ 100 = x ^ 33).
  { rewrite <- !Rpower_pow by (auto; unfold Rpower; apply exp_pos). rewrite Rpower_mult. f_equal.
    rewrite !INR_IZR_INZ. change (Z.of_nat 100) with 100%Z. change (Z.of_nat 33) with 33%Z. lra. }
  assert (c ^ 100 < Rpower x 0.33 ^ 100). { assert (G : forall k, (0 < k)%nat -> c ^ k < Rpower x 0.33 ^ k).
    { induction k as [|k IH]; [lia|]. intros _. destruct k as [|k]; [simpl; lra|]. specialize (IH ltac:(lia)). change (c * c ^ S k < Rpower x 0.33 * Rpower x 0.33 ^ S k).
      apply Rmult_le_0_lt_compat; auto; [lra|]. left. apply pow_lt. auto. }
    apply G. lia. }
  lra.
Qed.
Lemma rise_8 : rise 8 <= 1.
Proof.
  unfold rise. destruct (Rlt_dec 0 8); [|lra]. enough (Rpower 8 0.33 <= 2) by lra. apply pow_le_Rpower; try lra.
Qed.
Lemma rise_3 : rise 3 <= 0.7185.
Proof.
  unfold rise. destruct (Rlt_dec 0 3); [|lra]. enough (Rpower 3 0.33 <= 1437/1000) by lra. apply pow_le_Rpower; try lra.
Qed.

Lemma static_mono : forall r s, r <= s -> matlock_static r <= matlock_static s.
Proof.
  intros r s H. unfold matlock_static. destruct (Rlt_dec 8 r), (Rlt_dec 8 s); try lra; [|apply rise_mono; auto].
  pose proof (rise_mono r 8 ltac:(lra)). pose proof rise_8. lra.
Qed.
Lemma static_range : forall r, 0 <= matlock_static r /\ matlock_static r <= 1.
Proof.
  intros r. unfold matlock_static. destruct (Rlt_dec 8 r); [lra|]. split; [apply rise_nonneg|].
  pose proof (rise_mono r 8 ltac:(lra)). pose proof rise_8. lra.
Qed.
Lemma cyclic_range : forall f b z r, rise b <= f -> 0 < b -> b < 15 -> 0 <= z -> 0 <= matlock_cyclic f b z r /\ matlock_cyclic f b z r <= f.
Proof.
  intros f b z r F B0 B1 Z. assert (F0 : 0 <= f) by (pose proof (rise_nonneg b); lra). unfold matlock_cyclic.
  destruct (Rle_dec r b) as [L|L]; [split; [apply rise_nonneg|pose proof (rise_mono r b L); lra]|].
  destruct (Rlt_dec 1 z); [lra|]. destruct (Rlt_dec 15 r); [split; [apply Rmult_le_pos; lra|nra]|].
  assert (Q : 0 <= (r - b) / (15 - b) /\ (r - b) / (15 - b) <= 1).
  { split; [apply Rmult_le_pos; [lra|left; apply Rinv_0_lt_compat; lra]|]. apply (Rmult_le_reg_r (15 - b)); [lra|].
    unfold Rdiv. rewrite Rmult_assoc, Rinv_l by lra. lra. }
  set (q := (r - b) / (15 - b)) in *. assert (0 <= (1 - z) * q <= 1) by nra. split; [apply Rmult_le_pos; lra|nra].
Qed.
(** Below the transition depth the cyclic curve never drops. *)
Lemma cyclic_mono : forall f b z r s, rise b <= f -> 1 < z -> r <= s -> matlock_cyclic f b z r <= matlock_cyclic f b z s.
Proof.
  intros f b z r s F Z H. unfold matlock_cyclic. destruct (Rlt_dec 1 z); [|lra]. destruct (Rle_dec r b), (Rle_dec s b); try lra; [apply rise_mono; auto|].
  pose proof (rise_mono r b r1). lra.
Qed.
(** Above it, it never rises once past the break. *)
Lemma cyclic_soft : forall f b z r s, 0 <= f -> b < 15 -> 0 <= z -> z <= 1 -> b < r -> r <= s -> matlock_cyclic f b z s <= matlock_cyclic f b z r.
Proof.
  intros f b z r s F B Z0 Z1 Hr H. unfold matlock_cyclic. destruct (Rle_dec r b), (Rle_dec s b); try lra. destruct (Rlt_dec 1 z); [lra|].
  assert (Q : forall x, x <= 15 -> z <= 1 - (1 - z) * ((x - b) / (15 - b))).
  { intros x Hx. assert ((x - b) / (15 - b) <= 1) by (apply (Rmult_le_reg_r (15 - b)); [lra|]; unfold Rdiv; rewrite Rmult_assoc, Rinv_l by lra; lra).
    assert ((1 - z) * ((x - b) / (15 - b)) <= (1 - z) * 1) by (apply Rmult_le_compat_l; lra). lra. }
  destruct (Rlt_dec 15 r), (Rlt_dec 15 s); try lra.
  - apply Rmult_le_compat_l; auto. apply Q. lra.
  - apply Rmult_le_compat_l; auto. assert ((r - b) / (15 - b) <= (s - b) / (15 - b)) by (apply Rmult_le_compat_r; [left; apply Rinv_0_lt_compat; lra|lra]).
    assert ((1 - z) * ((r - b) / (15 - b)) <= (1 - z) * ((s - b) / (15 - b))) by (apply Rmult_le_compat_l; lra). lra.
Qed.

Definition frac_of (f b z : R) (kind : loading) (r : R) : R := match kind with Static => matlock_static r | Cyclic => matlock_cyclic f b z r end.

Lemma div_lt : forall a v y50, 0 < y50 -> (a * y50 < v <-> a < v / y50).
Proof.
  intros a v y50 H. split; intros L.
  - apply (Rmult_lt_reg_r y50); auto. unfold Rdiv. rewrite Rmult_assoc, Rinv_l by lra. lra.
  - apply (Rmult_lt_compat_r y50) in L; auto. unfold Rdiv in L. rewrite Rmult_assoc, Rinv_l in L by lra. lra.
Qed.
Lemma power_eq : forall Pmax y50 v, 0 < y50 -> clay_power Pmax y50 v = Ok (Pmax * rise (v / y50)).
Proof. intros. unfold clay_power, rpow, rise. rewrite nonzero_ok by lra. f_equal. destruct (Rlt_dec 0 (v / y50)); lra. Qed.

Lemma clay_p_eq : forall f b w kind Pmax y50 X Xr v, 0 < y50 -> 0 < Xr -> 0 < b -> 0 < w -> b + w = 15 ->
  clay_p f b w kind Pmax y50 X Xr v = Ok (Pmax * frac_of f b (X / Xr) kind (v / y50)).
Proof.
  intros f b w kind Pmax y50 X Xr v Hy HX Hb Hw E. destruct kind; simpl.
  - unfold clay_static, matlock_static. pose proof (div_lt 8 v y50 Hy). destruct (Rlt_dec (8 * y50) v), (Rlt_dec 8 (v / y50)); try tauto; [f_equal; ring|apply power_eq; auto].
  - unfold clay_cyclic, matlock_cyclic. pose proof (div_lt 15 v y50 Hy) as D15. pose proof (div_lt b v y50 Hy) as Db. pose proof (div_lt 1 X Xr HX) as DX. rewrite Rmult_1_l in DX.
    rewrite !nonzero_ok by nra. rewrite power_eq by auto.
    destruct (Rle_dec X Xr) as [LX|LX].
    + assert (NX : ~ 1 < X / Xr) by (rewrite <- DX; lra). destruct (Rlt_dec 1 (X / Xr)); [contradiction|].
      destruct (Rle_dec (v / y50) b) as [Lb|Lb].
      * destruct (Rlt_dec (15 * y50) v) as [L|L]; [apply D15 in L; lra|]. destruct (Rlt_dec (b * y50) v) as [L'|L']; [apply Db in L'; lra|reflexivity].
      * destruct (Rlt_dec 15 (v / y50)) as [L|L].
        -- destruct (Rlt_dec (15 * y50) v) as [L'|L']; [f_equal; field; lra|exfalso; apply L', D15; auto].
        -- destruct (Rlt_dec (15 * y50) v) as [L'|L']; [exfalso; apply L, D15; auto|]. destruct (Rlt_dec (b * y50) v) as [L2|L2]; [|exfalso; apply L2, Db; lra].
           f_equal. replace (15 - b) with w by lra. field. lra.
    + assert (YX : 1 < X / Xr) by (apply DX; lra). destruct (Rlt_dec 1 (X / Xr)); [|contradiction].
      destruct (Rle_dec (v / y50) b) as [Lb|Lb]; destruct (Rlt_dec (b * y50) v) as [L'|L']; try reflexivity.
      * apply Db in L'. lra.
      * f_equal; ring.
      * exfalso. apply L', Db. lra.
Qed.

Lemma clay_Xr_ok : forall sig X Su D J, 0 <= sig -> 0 <= X -> 0 <= Su -> 0 < D -> 0 < J ->
  exists Xr, clay_Xr sig X Su D J = Ok Xr /\ 2.5 * D <= Xr.
Proof.
  intros sig X Su D J Hs HX HS HD HJ. unfold clay_Xr. destruct (Req_EM_T X 0); [eexists; split; [reflexivity|lra]|]. destruct (Req_EM_T Su 0); [eexists; split; [reflexivity|lra]|].
  assert (0 <= sig / X * D / Su). { apply Rmult_le_pos; [|left; apply Rinv_0_lt_compat; lra]. apply Rmult_le_pos; [|lra]. apply Rmult_le_pos; [lra|]. left. apply Rinv_0_lt_compat. lra. }
  rewrite nonzero_ok by lra. eexists. split; [reflexivity|apply Rmax_r].
Qed.
Lemma Pmax_nonneg : forall sig X Su D J, 0 <= sig -> 0 <= X -> 0 <= Su -> 0 < D -> 0 < J -> 0 <= clay_Pmax sig X Su D J.
Proof.
  intros. unfold clay_Pmax. apply Rmin_glb; [apply Rmult_le_pos; lra|]. assert (0 <= J * Su * X) by (apply Rmult_le_pos; [apply Rmult_le_pos; lra|lra]).
  assert (0 <= (3 * Su + sig) * D) by (apply Rmult_le_pos; lra). lra.
Qed.
(** The ultimate resistance is the bearing factor times strength and width. *)
Lemma Pmax_Nc : forall sig X Su D J, 0 < Su -> 0 < D -> clay_Pmax sig X Su D J = clay_Nc sig X Su D J * (Su * D).
Proof.
  intros sig X Su D J HS HD. assert (P : 0 < Su * D) by (apply Rmult_lt_0_compat; auto). unfold clay_Pmax, clay_Nc.
  replace (9 * Su * D) with (9 * (Su * D)) by ring. replace ((3 * Su + sig) * D + J * Su * X) with ((3 + sig / Su + J * X / D) * (Su * D)) by (field; lra).
  unfold Rmin. destruct (Rle_dec (9 * (Su * D)) ((3 + sig / Su + J * X / D) * (Su * D))), (Rle_dec 9 (3 + sig / Su + J * X / D)); try reflexivity; nra.
Qed.

(** All three curves *)
Section Curve.
Variables (f b w : R) (kind : loading) (Pmax y50 X Xr ymax : R) (grid : list R) (added : nat -> R) (n : nat).
Hypothesis Hy : 0 < y50.
Hypothesis HXr : 0 < Xr.
Hypothesis HX : 0 <= X.
Hypothesis Hb : 0 < b.
Hypothesis Hw : 0 < w.
Hypothesis E15 : b + w = 15.
Hypothesis HP : 0 <= Pmax.
Hypothesis HF : rise b <= f.
Hypothesis I0 : In 0 grid.
Hypothesis IY : In ymax grid.
Hypothesis Y0 : 0 <= ymax.
Hypothesis G0 : forall v, In v grid -> 0 <= v.
Hypothesis A0 : forall i, 0 <= added i.
Hypothesis LN : (length grid <= n)%nat.
Hypothesis N0 : (0 < n)%nat.
Let y := clay_grid ymax grid added n.
Let g := frac_of f b (X / Xr) kind.
Let p := map (fun v => Pmax * g (v / y50)) y.

Lemma curve_ok : mapM (clay_p f b w kind Pmax y50 X Xr) y = Ok p.
Proof. apply mapM_ok. intros. apply clay_p_eq; auto. Qed.
Lemma p_nth : forall i, (i < n)%nat -> nth i p 0 = Pmax * g (nth i y 0 / y50).
Proof.
  intros i Hi. unfold p. rewrite (nth_indep _ 0 (Pmax * g (0 / y50))) by (rewrite map_length; unfold y; rewrite grid_length; auto).
  apply (map_nth (fun v => Pmax * g (v / y50))).
Qed.
Lemma z_nonneg : 0 <= X / Xr. Proof. apply Rmult_le_pos; auto. left. apply Rinv_0_lt_compat. auto. Qed.
Lemma curve_discretised : discretised g y50 Pmax n y p.
Proof.
  constructor.
  - apply grid_length; auto.
  - unfold p. rewrite map_length. apply grid_length; auto.
  - apply grid_first; auto.
  - rewrite p_nth by auto. unfold y. rewrite grid_first by auto. replace (0 / y50) with 0 by (field; lra). unfold g, frac_of, matlock_static, matlock_cyclic.
    destruct kind; [destruct (Rlt_dec 8 0); [lra|]|destruct (Rle_dec 0 b); [|lra]]; rewrite rise_0; ring.
  - apply grid_sorted.
  - apply p_nth.
Qed.
Lemma frac_le : forall u v, u <= v -> u / y50 <= v / y50.
Proof. intros. apply Rmult_le_compat_r; [left; apply Rinv_0_lt_compat; auto|auto]. Qed.
Lemma curve_static : kind = Static -> nondecreasing p /\ (forall v, In v p -> 0 <= v /\ v <= Pmax) /\ (8 * y50 < ymax -> last p 0 = Pmax).
Proof.
  intros K. repeat apply conj.
  - apply nondecreasing_map; [apply grid_sorted|]. intros u v _ _ L. apply Rmult_le_compat_l; auto. unfold g. rewrite K. apply static_mono, frac_le, L.
  - intros v I. apply in_map_iff in I. destruct I as (s & <- & _). unfold g. rewrite K. pose proof (static_range (s / y50)). simpl. split; [apply Rmult_le_pos; lra|nra].
  - intros L. rewrite last_nth0. assert (LP : length p = n) by (unfold p; rewrite map_length; apply grid_length; auto). rewrite LP, p_nth by lia.
    assert (LY : length y = n) by (apply grid_length; auto). rewrite <- LY, <- last_nth0. unfold g. rewrite K. simpl. unfold matlock_static.
    pose proof (nd_last_ge y ymax (grid_sorted _ _ _ _) (grid_end _ _ _ _ IY LN)). assert (8 < last y 0 / y50) by (apply (proj1 (div_lt 8 _ _ Hy)); lra). destruct (Rlt_dec 8 (last y 0 / y50)); [ring|contradiction].
Qed.
Lemma curve_cyclic : kind = Cyclic -> (forall v, In v p -> 0 <= v /\ v <= f * Pmax) /\ (Xr < X -> nondecreasing p) /\ (15 * y50 < ymax -> last p 0 = f * Pmax * Rmin 1 (X / Xr)).
Proof.
  intros K. pose proof z_nonneg as Z. assert (F0 : 0 <= f) by (pose proof (rise_nonneg b); lra). repeat apply conj.
  - intros v I. apply in_map_iff in I. destruct I as (s & <- & _). unfold g. rewrite K. simpl.
    pose proof (cyclic_range f b (X / Xr) (s / y50) HF Hb ltac:(lra) Z). split; [apply Rmult_le_pos; lra|nra].
  - intros L. assert (Z1 : 1 < X / Xr) by (apply (proj1 (div_lt 1 _ _ HXr)); lra). apply nondecreasing_map; [apply grid_sorted|]. intros u v _ _ L'. apply Rmult_le_compat_l; auto.
    unfold g. rewrite K. apply cyclic_mono; auto. apply frac_le, L'.
  - intros L. rewrite last_nth0. assert (LP : length p = n) by (unfold p; rewrite map_length; apply grid_length; auto). rewrite LP, p_nth by lia.
    assert (LY : length y = n) by (apply grid_length; auto). rewrite <- LY, <- last_nth0. unfold g. rewrite K. simpl. unfold matlock_cyclic.
    pose proof (nd_last_ge y ymax (grid_sorted _ _ _ _) (grid_end _ _ _ _ IY LN)). assert (15 < last y 0 / y50) by (apply (proj1 (div_lt 15 _ _ Hy)); lra).
    destruct (Rle_dec (last y 0 / y50) b); [lra|]. destruct (Rlt_dec 1 (X / Xr)); [rewrite Rmin_left by lra; ring|]. destruct (Rlt_dec 15 (last y 0 / y50)); [|contradiction].
    rewrite Rmin_right by lra. ring.
Qed.
End Curve.
