(** Lemmas for axial springs. *)
From Coq Require Import List Reals Lra Lia Psatz Permutation Sorted Arith.
From Verif Require Import Base ConicModel ConicSpec ConicProofs PisaModel PisaProofs ApiSandModel ApiClayModel ApiClayProofs ReeseProofs AxialModel AxialSpec.
Import ListNotations.
Local Open Scope R_scope.

(** Sorting *)
Lemma rinsert_low : forall a l, (forall x, In x l -> a <= x) -> rinsert a l = a :: l.
Proof. intros a [|b t] H; simpl; [reflexivity|]. destruct (Rle_dec a b) as [|N]; [reflexivity|]. exfalso. apply N, H. left. reflexivity. Qed.
Lemma rsort_low : forall l1 l2, nondecreasing l1 -> (forall x y, In x l1 -> In y l2 -> x <= y) -> rsort (l1 ++ l2) = l1 ++ rsort l2.
Proof.
  induction l1 as [|a t IH]; intros l2 N H; [reflexivity|]. simpl. rewrite IH.
  - apply rinsert_low. intros x I. apply in_app_iff in I. destruct I as [I|I]; [eapply nondecreasing_hd; eauto|]. apply H; [left; reflexivity|]. apply rsort_in; auto.
  - eapply nondecreasing_tl; eauto.
  - intros x y Ix Iy. apply H; [right|]; auto.
Qed.
Lemma sorted_perm_eq : forall l l', nondecreasing l -> nondecreasing l' -> Permutation l l' -> l = l'.
Proof.
  induction l as [|a t IH]; intros l' N N' P; [apply Permutation_nil in P; congruence|].
  destruct l' as [|b t']; [apply Permutation_sym, Permutation_nil in P; discriminate|].
  assert (E : a = b).
  { apply Rle_antisym.
    - assert (I : In b (a :: t)) by (eapply Permutation_in; [apply Permutation_sym; exact P|left; reflexivity]). destruct I as [->|I]; [lra|eapply nondecreasing_hd; eauto].
    - assert (I : In a (b :: t')) by (eapply Permutation_in; [exact P|left; reflexivity]). destruct I as [->|I]; [lra|eapply nondecreasing_hd; eauto]. }
  subst b. f_equal. apply IH; [eapply nondecreasing_tl; eauto|eapply nondecreasing_tl; eauto|]. eapply Permutation_cons_inv; eauto.
Qed.
Lemma map_nth_seq : forall (l : list R), map (fun i => nth i l 0) (seq 0 (length l)) = l.
Proof.
  intros l. apply (nth_ext _ _ 0 0); [rewrite map_length, seq_length; reflexivity|]. intros i Hi. rewrite map_length, seq_length in Hi.
  rewrite (nth_indep _ 0 (nth 0%nat l 0)) by (rewrite map_length, seq_length; auto). rewrite (map_nth (fun i => nth i l 0)), seq_nth by auto. reflexivity.
Qed.
(** Reordering by an argsort of a sorted list changes nothing when equal abscissae have equal ordinates. *)
Lemma argsort_ties : forall z t idx, argsort z idx -> nondecreasing z -> length t = length z ->
  (forall a b, (a < length z)%nat -> (b < length z)%nat -> nth a z 0 = nth b z 0 -> nth a t 0 = nth b t 0) -> map (fun i => nth i t 0) idx = t.
Proof.
  intros z t idx [P N] NZ LT T. assert (LI : length idx = length z) by (rewrite (Permutation_length P); apply seq_length).
  assert (EZ : map (fun i => nth i z 0) idx = z).
  { apply sorted_perm_eq; auto. eapply Permutation_trans; [apply Permutation_map, P|]. rewrite map_nth_seq. apply Permutation_refl. }
  apply (nth_ext _ _ 0 0); [rewrite map_length; lia|]. intros i Hi. rewrite map_length in Hi.
  rewrite (nth_indep _ 0 (nth 0%nat t 0)) by (rewrite map_length; auto). rewrite (map_nth (fun i => nth i t 0)).
  assert (Ii : In (nth i idx 0%nat) (seq 0 (length z))) by (eapply Permutation_in; [exact P|apply nth_In; auto]). apply in_seq in Ii.
  apply T; try lia. rewrite <- EZ at 2. rewrite (nth_indep (map _ idx) 0 (nth 0%nat z 0)) by (rewrite map_length; auto). rewrite (map_nth (fun i => nth i z 0)). reflexivity.
Qed.
Lemma argsort_id : forall z, nondecreasing z -> argsort z (seq 0 (length z)).
Proof. intros z H. split; [apply Permutation_refl|]. rewrite map_nth_seq. exact H. Qed.

Lemma strict_nth : forall l i j, StronglySorted Rlt l -> (i < j)%nat -> (j < length l)%nat -> nth i l 0 < nth j l 0.
Proof.
  induction l as [|a t IH]; intros i j Sr H Hj; [simpl in Hj; lia|]. apply StronglySorted_inv in Sr. destruct Sr as [Sr F]. rewrite Forall_forall in F.
  destruct j as [|j]; [lia|]. simpl in Hj. destruct i as [|i]; simpl; [apply F, nth_In; lia|]. apply IH; auto; lia.
Qed.
Lemma strict_nd : forall l, StronglySorted Rlt l -> nondecreasing l.
Proof. intros l H i j Hij Hj. destruct (Nat.eq_dec i j) as [->|N]; [lra|]. left. apply strict_nth; auto. lia. Qed.

(** The backbone: a strictly increasing part, then values with a constant ordinate. *)
Section Backbone.
Variables (low high tlow : list R) (v : R) (added : nat -> R) (n : nat) (idx : list nat).
Hypothesis SL : StronglySorted Rlt low.
Hypothesis LT : length tlow = length low.
Hypothesis LH : forall x y, In x low -> In y high -> x < y.
Hypothesis LA : forall x i, In x low -> x < added i.
Hypothesis LN : (length (low ++ high) <= n)%nat.
Let zs := low ++ high.
Let ts := tlow ++ repeat v (length high).
Let z := backbone_z zs added n.
Let rest := rsort (high ++ map added (seq 0 (n - length zs))).
Lemma back_z : z = low ++ rest.
Proof.
  unfold z, backbone_z, rest, zs. rewrite <- app_assoc. apply rsort_low; [apply strict_nd; auto|]. intros x y Ix Iy. left. apply in_app_iff in Iy. destruct Iy as [Iy|Iy]; [apply LH; auto|].
  apply in_map_iff in Iy. destruct Iy as (i & <- & _). apply LA; auto.
Qed.
Lemma rest_in : forall y, In y rest <-> In y high \/ exists i, (i < n - length zs)%nat /\ y = added i.
Proof using.
  clear LN LT. intros y. unfold rest. rewrite rsort_in, in_app_iff, in_map_iff. split; (intros [H|H]; [left; exact H|right]).
  - destruct H as (i & E & I). apply in_seq in I. exists i. split; [lia|auto].
  - destruct H as (i & L & E). exists i. split; [auto|apply in_seq; lia].
Qed.
Lemma back_length : length z = n.
Proof using LN. clear LT. unfold z, backbone_z. rewrite rsort_length, app_length, map_length, seq_length. unfold zs. lia. Qed.
Lemma rest_length : length rest = (n - length low)%nat.
Proof using LN SL LH LA. clear LT. pose proof back_length as B. rewrite back_z, app_length in B. lia. Qed.
Lemma back_sorted : nondecreasing z. Proof. apply rsort_nd. Qed.
Lemma back_t : argsort z idx -> backbone_t zs ts v n idx = tlow ++ repeat v (n - length low).
Proof.
  intros A. unfold backbone_t, ts. cbv zeta. rewrite <- app_assoc, <- repeat_app. replace (length high + (n - length zs))%nat with (n - length low)%nat by (unfold zs; rewrite app_length in *; lia).
  apply (argsort_ties z); auto; [apply back_sorted|rewrite app_length, repeat_length, back_length, LT; rewrite app_length in LN; lia|].
  rewrite back_length. intros a b Ha Hb E.
  assert (HI : forall c, (length low <= c)%nat -> (c < n)%nat -> nth c (tlow ++ repeat v (n - length low)) 0 = v).
  { intros c H1 H2. rewrite app_nth2 by lia. rewrite LT. apply (repeat_spec (n - length low) v). apply nth_In. rewrite repeat_length. lia. }
  assert (X : forall c d, (c < length low)%nat -> (length low <= d)%nat -> (d < n)%nat -> nth c z 0 < nth d z 0).
  { intros c d H1 H2 H3. rewrite back_z. rewrite app_nth1 by auto. rewrite (app_nth2 low) by auto. assert (Id : In (nth (d - length low) rest 0) rest) by (apply nth_In; rewrite rest_length; lia).
    assert (Ic : In (nth c low 0) low) by (apply nth_In; auto). apply rest_in in Id. destruct Id as [Id|(i & _ & ->)]; auto. }
  destruct (le_lt_dec (length low) a) as [La|La], (le_lt_dec (length low) b) as [Lb|Lb].
  - rewrite !HI by auto. reflexivity.
  - pose proof (X b a Lb La Ha). lra.
  - pose proof (X a b La Lb Hb). lra.
  - destruct (lt_eq_lt_dec a b) as [[L| ->]|L]; [|reflexivity|]; exfalso; rewrite back_z in E; rewrite !(app_nth1 low) in E by auto; pose proof (strict_nth low _ _ SL L ltac:(auto)); lra.
Qed.
End Backbone.

(** Interpolation in a table *)
Fixpoint rising (l : list (R * R)) : Prop :=
  match l with (x0, y0) :: (((x1, y1) :: _) as t) => x0 < x1 /\ y0 <= y1 /\ rising t | _ => True end.
Lemma interp_unfold : forall x0 y0 x1 y1 t w, rinterp ((x0, y0) :: (x1, y1) :: t) w = if Rle_dec w x0 then y0 else if Rle_dec w x1 then y0 + (y1 - y0) * (w - x0) / (x1 - x0) else rinterp ((x1, y1) :: t) w.
Proof. reflexivity. Qed.
Lemma interp_bounds : forall l x0 y0, rising ((x0, y0) :: l) -> forall x, y0 <= rinterp ((x0, y0) :: l) x /\ rinterp ((x0, y0) :: l) x <= snd (last ((x0, y0) :: l) (0, 0)).
Proof.
  induction l as [|[x1 y1] t IH]; intros x0 y0 Rs x.
  - simpl. destruct (Rle_dec x x0); lra.
  - destruct Rs as (H1 & H2 & H3). pose proof (IH x1 y1 H3) as B. pose proof (B x1) as [B1 B2]. rewrite interp_unfold.
    change (last ((x0, y0) :: (x1, y1) :: t) (0, 0)) with (last ((x1, y1) :: t) (0, 0)).
    set (top := snd (last ((x1, y1) :: t) (0, 0))) in *. assert (T : y1 <= top) by lra.
    destruct (Rle_dec x x0); [lra|]. destruct (Rle_dec x x1) as [L|L].
    + assert (Q : 0 <= (x - x0) / (x1 - x0) /\ (x - x0) / (x1 - x0) <= 1).
      { split; [apply Rmult_le_pos; [lra|left; apply Rinv_0_lt_compat; lra]|]. apply (Rmult_le_reg_r (x1 - x0)); [lra|]. unfold Rdiv. rewrite Rmult_assoc, Rinv_l by lra. lra. }
      replace ((y1 - y0) * (x - x0) / (x1 - x0)) with ((y1 - y0) * ((x - x0) / (x1 - x0))) by (unfold Rdiv; ring).
      assert (0 <= (y1 - y0) * ((x - x0) / (x1 - x0))) by (apply Rmult_le_pos; lra).
      assert ((y1 - y0) * ((x - x0) / (x1 - x0)) <= (y1 - y0) * 1) by (apply Rmult_le_compat_l; lra). lra.
    + specialize (B x). lra.
Qed.
Lemma interp_mono : forall l x0 y0, rising ((x0, y0) :: l) -> forall x y, x <= y -> rinterp ((x0, y0) :: l) x <= rinterp ((x0, y0) :: l) y.
Proof.
  induction l as [|[x1 y1] t IH]; intros x0 y0 Rs x y H.
  - simpl. destruct (Rle_dec x x0), (Rle_dec y x0); lra.
  - pose proof (interp_bounds _ _ _ Rs y) as B. destruct Rs as (H1 & H2 & H3). pose proof (interp_bounds _ _ _ H3 y) as B'.
    assert (M : forall w, x0 < x1 -> w <= x1 -> x0 < w -> (w - x0) / (x1 - x0) <= 1).
    { intros w _ L _. apply (Rmult_le_reg_r (x1 - x0)); [lra|]. unfold Rdiv. rewrite Rmult_assoc, Rinv_l by lra. lra. }
    rewrite (interp_unfold _ _ _ _ _ x). destruct (Rle_dec x x0); [lra|]. destruct (Rle_dec x x1).
    + rewrite interp_unfold. destruct (Rle_dec y x0); [lra|]. unfold Rdiv in *. destruct (Rle_dec y x1).
      * apply Rplus_le_compat_l. apply Rmult_le_compat_r; [left; apply Rinv_0_lt_compat; lra|]. apply Rmult_le_compat_l; lra.
      * specialize (M x H1 ltac:(lra) ltac:(lra)). rewrite Rmult_assoc. assert ((y1 - y0) * ((x - x0) * / (x1 - x0)) <= (y1 - y0) * 1) by (apply Rmult_le_compat_l; lra). lra.
    + rewrite interp_unfold. destruct (Rle_dec y x0); [lra|]. destruct (Rle_dec y x1); [lra|]. apply IH; auto.
Qed.

(** Adhesion in clay *)
Lemma fmax_clay_eq : forall sig Su limit, 0 < sig -> 0 <= Su -> 0 <= limit -> fmax_api_clay sig Su limit = if Req_EM_T Su 0 then 0 else clay_friction sig Su limit.
Proof.
  intros sig Su limit Hs HS HL. unfold fmax_api_clay, clay_friction. cbv zeta. destruct (Req_EM_T sig 0); [lra|].
  assert (D1 : 1 < Su / sig <-> sig < Su) by (pose proof (div_lt 1 Su sig Hs) as E; rewrite Rmult_1_l in E; tauto).
  destruct (Req_EM_T Su 0) as [->|NS].
  - destruct (Rlt_dec 1 (0 / sig)) as [L|L]; [apply D1 in L; lra|]. destruct (Req_EM_T (0 / sig) 0); ring.
  - assert (SP : 0 < Su) by lra. assert (QP : 0 < Su / sig) by (apply Rdiv_lt_0_compat; auto).
    assert (MIN : forall a, Rmin a limit * Su = Rmin (a * Su) (limit * Su)). { intros a. unfold Rmin. destruct (Rle_dec a limit), (Rle_dec (a * Su) (limit * Su)); try reflexivity; nra. }
    assert (PW : forall a, 0.5 * Rpower (Su / sig) (- a) * Su = 0.5 * (Rpower Su (1 - a) * Rpower sig a)).
    { intros a. rewrite Rpower_div by auto. rewrite (Rpower_Ropp sig). unfold Rminus. rewrite Rpower_plus, Rpower_1 by auto. pose proof (Rpower_gt0 sig a). field. lra. }
    destruct (Rlt_dec 1 (Su / sig)) as [L|L].
    + apply D1 in L. destruct (Rle_dec Su sig); [lra|]. rewrite MIN. replace (-0.25) with (- (0.25)) by lra. rewrite PW. replace (1 - 0.25) with 0.75 by lra. reflexivity.
    + destruct (Rle_dec Su sig) as [L'|L']; [|exfalso; apply L, D1; lra]. destruct (Req_EM_T (Su / sig) 0); [lra|]. rewrite MIN. replace (-0.5) with (- (0.5)) by lra. rewrite PW. replace (1 - 0.5) with 0.5 by lra. reflexivity.
Qed.
Lemma friction_nonneg : forall sig Su limit, 0 < sig -> 0 < Su -> 0 <= limit -> 0 <= clay_friction sig Su limit.
Proof.
  intros. unfold clay_friction. apply Rmin_glb; [|apply Rmult_le_pos; lra]. apply Rmult_le_pos; [lra|]. destruct (Rle_dec Su sig); left; apply Rmult_lt_0_compat; apply Rpower_gt0.
Qed.
Lemma mean_mono : forall sig Su sig' Su', 0 < sig -> 0 < Su -> sig <= sig' -> Su <= Su' ->
  (if Rle_dec Su sig then Rpower Su 0.5 * Rpower sig 0.5 else Rpower Su 0.75 * Rpower sig 0.25) <= (if Rle_dec Su' sig' then Rpower Su' 0.5 * Rpower sig' 0.5 else Rpower Su' 0.75 * Rpower sig' 0.25).
Proof.
  intros sig Su sig' Su' H1 H2 H3 H4.
  assert (PM : forall a b s S1, 0 <= a -> 0 <= b -> 0 < s -> 0 < S1 -> forall s' S1', s <= s' -> S1 <= S1' -> Rpower S1 a * Rpower s b <= Rpower S1' a * Rpower s' b).
  { intros. apply Rmult_le_compat; try (left; apply Rpower_gt0); apply Rpower_mono; auto. }
  assert (EQ : forall s, 0 < s -> Rpower s 0.5 * Rpower s 0.5 = s /\ Rpower s 0.75 * Rpower s 0.25 = s).
  { intros s Hs. rewrite <- !Rpower_plus. replace (0.5 + 0.5) with 1 by lra. replace (0.75 + 0.25) with 1 by lra. rewrite Rpower_1 by auto. auto. }
  destruct (Rle_dec Su sig), (Rle_dec Su' sig').
  - apply PM; lra.
  - (* through the common value sig' *)
    apply (Rle_trans _ (Rpower sig' 0.5 * Rpower sig' 0.5)); [apply PM; lra|]. destruct (EQ sig' ltac:(lra)) as [E1 E2]. apply (Rle_trans _ (Rpower sig' 0.75 * Rpower sig' 0.25)); [lra|apply PM; lra].
  - destruct (Rle_dec Su sig') as [L|L]; [|lra].
    apply (Rle_trans _ (Rpower Su 0.75 * Rpower Su 0.25)); [apply PM; lra|]. destruct (EQ Su ltac:(lra)) as [E1 ->]. rewrite <- E1 at 1. apply PM; lra.
  - apply PM; lra.
Qed.
Lemma friction_mono : forall sig Su sig' Su' limit, 0 < sig -> 0 < Su -> sig <= sig' -> Su <= Su' -> 0 <= limit -> clay_friction sig Su limit <= clay_friction sig' Su' limit.
Proof.
  intros sig Su sig' Su' limit H1 H2 H3 H4 HL. unfold clay_friction. pose proof (mean_mono sig Su sig' Su' H1 H2 H3 H4). apply Rmin_glb.
  - eapply Rle_trans; [apply Rmin_l|]. lra.
  - eapply Rle_trans; [apply Rmin_r|]. apply Rmult_le_compat_l; lra.
Qed.

(** Points of curves *)
Lemma combine_app : forall (A B : Type) (a a' : list A) (b b' : list B), length a = length b -> combine (a ++ a') (b ++ b') = combine a b ++ combine a' b'.
Proof. induction a as [|x a IH]; intros a' [|y b] b' H; simpl in *; try lia; [reflexivity|]. rewrite IH by lia. reflexivity. Qed.
Lemma combine_rev : forall (A B : Type) (a : list A) (b : list B), length a = length b -> combine (rev a) (rev b) = rev (combine a b).
Proof. induction a as [|x a IH]; intros [|y b] H; simpl in *; try lia; [reflexivity|]. rewrite combine_app by (rewrite !rev_length; lia). rewrite IH by lia. reflexivity. Qed.
Lemma combine_map2 : forall (A B C D : Type) (f : A -> C) (g : B -> D) a b, combine (map f a) (map g b) = map (fun p => (f (fst p), g (snd p))) (combine a b).
Proof. induction a as [|x a IH]; intros [|y b]; simpl; try reflexivity. rewrite IH. reflexivity. Qed.
Lemma point_scale : forall z t c d p, has_point z t p -> has_point (scale c z) (scale d t) (fst p * c, snd p * d).
Proof. intros z t c d p H. unfold has_point, scale in *. rewrite combine_map2. apply in_map_iff. exists p. auto. Qed.
Lemma point_nth : forall z t p, length z = length t -> (has_point z t p <-> exists i, (i < length z)%nat /\ nth i z 0 = fst p /\ nth i t 0 = snd p).
Proof.
  intros z t p L. unfold has_point. split.
  - intros I. destruct (In_nth _ _ (0, 0) I) as (i & Hi & E). rewrite combine_length in Hi. rewrite combine_nth in E by auto. exists i. rewrite <- E. simpl. split; [lia|auto].
  - intros (i & Hi & E1 & E2). destruct p as [a b]. simpl in *. subst. rewrite <- combine_nth by auto. apply nth_In. rewrite combine_length. lia.
Qed.

(** Clay backbone *)
Definition clay_low : list R := firstn 13 clay_zs.
Definition clay_tlow (residual tf : R) : list R := firstn 13 (clay_ts residual tf).
Lemma clay_low_sorted : StronglySorted Rlt clay_low.
Proof. unfold clay_low. cbn. repeat constructor; lra. Qed.
Lemma clay_low_range : forall x, In x clay_low -> -0.03 <= x <= 0.01.
Proof. intros x I. cbn in I. repeat (destruct I as [<-|I]; [lra|]). contradiction. Qed.
Section Clay.
Variables (u : nat -> R) (residual tf : R) (n : nat) (idx : list nat).
Hypothesis HU : forall i, 0 <= u i < 1.
Hypothesis HA : argsort (clay_backbone_z u n) idx.
Let N := Nat.max 15 n.
Let added := fun i => 0.02 + u i * 0.01.
Let rest := rsort ([0.0200; 0.0300] ++ map added (seq 0 (N - length clay_zs))).
Lemma clay_lh : forall x y, In x clay_low -> In y [0.0200; 0.0300] -> x < y.
Proof. intros x y I J. apply clay_low_range in I. destruct J as [<-|[<-|[]]]; lra. Qed.
Lemma clay_la : forall x i, In x clay_low -> x < added i.
Proof. intros x i I. apply clay_low_range in I. unfold added. pose proof (HU i). lra. Qed.
Lemma clay_ln : (length (clay_low ++ [0.0200; 0.0300]%R)%list <= N)%nat.
Proof. unfold N, clay_low. cbn [length app firstn clay_zs mirror map rev tl]. lia. Qed.
Lemma clay_z_eq : clay_backbone_z u n = clay_low ++ rest.
Proof. exact (back_z clay_low [0.0200; 0.0300] added N clay_low_sorted clay_lh clay_la). Qed.
Lemma clay_z_length : length (clay_backbone_z u n) = N.
Proof. exact (back_length clay_low [0.0200; 0.0300] added N clay_ln). Qed.
Lemma clay_z_sorted : nondecreasing (clay_backbone_z u n). Proof. apply rsort_nd. Qed.
Lemma clay_t_eq : clay_backbone_t residual tf n idx = clay_tlow residual tf ++ repeat residual (N - 13).
Proof. exact (back_t clay_low [0.0200; 0.0300] (clay_tlow residual tf) residual added N idx clay_low_sorted eq_refl clay_lh clay_la clay_ln HA). Qed.
Lemma clay_rest_range : forall y, In y rest -> 0.02 <= y <= 0.03.
Proof.
  intros y I. apply (rest_in clay_low [0.0200; 0.0300] added N) in I. destruct I as [[<-|[<-|[]]]|(i & _ & ->)]; try lra. unfold added. pose proof (HU i). lra.
Qed.
Lemma clay_rest_length : length rest = (N - 13)%nat.
Proof. exact (rest_length clay_low [0.0200; 0.0300] added N clay_low_sorted clay_lh clay_la clay_ln). Qed.
Lemma clay_points_eq : combine (clay_backbone_z u n) (clay_backbone_t residual tf n idx) = combine clay_low (clay_tlow residual tf) ++ combine rest (repeat residual (N - 13)).
Proof. rewrite clay_z_eq, clay_t_eq. apply combine_app. reflexivity. Qed.
Lemma clay_point : forall p, has_point (clay_backbone_z u n) (clay_backbone_t residual tf n idx) p <->
  In p (combine clay_low (clay_tlow residual tf)) \/ (In (fst p) rest /\ snd p = residual).
Proof.
  intros [a b]. unfold has_point. rewrite clay_points_eq, in_app_iff. apply or_iff_compat_l. simpl. split.
  - intros I. split; [eapply in_combine_l; eauto|]. apply in_combine_r in I. eapply repeat_spec; eauto.
  - intros [I ->]. destruct (In_nth _ _ 0 I) as (i & Hi & <-). rewrite clay_rest_length in Hi.
    assert (E : residual = nth i (repeat residual (N - 13)) 0) by (symmetry; apply (repeat_spec (N - 13)); apply nth_In; rewrite repeat_length; auto).
    rewrite E at 1. rewrite <- combine_nth by (rewrite repeat_length; apply clay_rest_length). apply nth_In. rewrite combine_length, repeat_length, clay_rest_length. lia.
Qed.
Lemma clay_t_length : length (clay_backbone_t residual tf n idx) = N.
Proof. rewrite clay_t_eq, app_length, repeat_length. change (length (clay_tlow residual tf)) with 13%nat. unfold N. lia. Qed.
End Clay.

(** Sand backbone *)
Definition sand_low : list R := firstn 13 sand_zs.
Definition sand_tlow (tf : R) : list R := firstn 13 (sand_ts tf).
Lemma sand_low_sorted : StronglySorted Rlt sand_low.
Proof. unfold sand_low. cbn. repeat constructor; lra. Qed.
Lemma sand_low_range : forall x, In x sand_low -> -0.04 <= x <= 0.036.
Proof. intros x I. cbn in I. repeat (destruct I as [<-|I]; [lra|]). contradiction. Qed.
Section Sand.
Variables (u : nat -> R) (tf : R) (n : nat) (idx : list nat).
Hypothesis HU : forall i, 0 <= u i < 1.
Hypothesis HA : argsort (sand_backbone_z u n) idx.
Let N := Nat.max 15 n.
Let added := fun i => 0.038 + u i * 0.01.
Let rest := rsort ([0.038; 0.04] ++ map added (seq 0 (N - length sand_zs))).
Lemma sand_lh : forall x y, In x sand_low -> In y [0.038; 0.04] -> x < y.
Proof. intros x y I J. apply sand_low_range in I. destruct J as [<-|[<-|[]]]; lra. Qed.
Lemma sand_la : forall x i, In x sand_low -> x < added i.
Proof. intros x i I. apply sand_low_range in I. unfold added. pose proof (HU i). lra. Qed.
Lemma sand_ln : (length (sand_low ++ [0.038; 0.04]%R)%list <= N)%nat.
Proof. unfold N, sand_low. cbn [length app firstn sand_zs mirror map rev tl]. lia. Qed.
Lemma sand_z_eq : sand_backbone_z u n = sand_low ++ rest.
Proof. exact (back_z sand_low [0.038; 0.04] added N sand_low_sorted sand_lh sand_la). Qed.
Lemma sand_z_length : length (sand_backbone_z u n) = N.
Proof. exact (back_length sand_low [0.038; 0.04] added N sand_ln). Qed.
Lemma sand_z_sorted : nondecreasing (sand_backbone_z u n). Proof. apply rsort_nd. Qed.
Lemma sand_t_eq : sand_backbone_t tf n idx = sand_tlow tf ++ repeat 1 (N - 13).
Proof. exact (back_t sand_low [0.038; 0.04] (sand_tlow tf) 1 added N idx sand_low_sorted eq_refl sand_lh sand_la sand_ln HA). Qed.
Lemma sand_rest_range : forall y, In y rest -> 0.038 <= y <= 0.048.
Proof.
  intros y I. apply (rest_in sand_low [0.038; 0.04] added N) in I. destruct I as [[<-|[<-|[]]]|(i & _ & ->)]; try lra. unfold added. pose proof (HU i). lra.
Qed.
Lemma sand_rest_length : length rest = (N - 13)%nat.
Proof. exact (rest_length sand_low [0.038; 0.04] added N sand_low_sorted sand_lh sand_la sand_ln). Qed.
Lemma sand_point : forall p, has_point (sand_backbone_z u n) (sand_backbone_t tf n idx) p ->
  In p (combine sand_low (sand_tlow tf)) \/ (In (fst p) rest /\ snd p = 1).
Proof.
  intros [a b]. unfold has_point. rewrite sand_z_eq, sand_t_eq, combine_app, in_app_iff by reflexivity. intros [I|I]; [left; auto|right]. simpl.
  split; [eapply in_combine_l; eauto|]. apply in_combine_r in I. eapply repeat_spec; eauto.
Qed.
Lemma sand_t_length : length (sand_backbone_t tf n idx) = N.
Proof. rewrite sand_t_eq, app_length, repeat_length. change (length (sand_tlow tf)) with 13%nat. unfold N. lia. Qed.
End Sand.

(** Tip backbone *)
Definition tip_low : list R := firstn 12 tip_zs.
Definition tip_Qlow : list R := firstn 12 tip_Qs.
Lemma tip_low_sorted : StronglySorted Rlt tip_low.
Proof. unfold tip_low. cbn. repeat constructor; lra. Qed.
Lemma tip_low_range : forall x, In x tip_low -> -0.2 <= x <= 0.073.
Proof. intros x I. cbn in I. repeat (destruct I as [<-|I]; [lra|]). contradiction. Qed.
Section Tip.
Variables (u : nat -> R) (n : nat) (idx : list nat).
Hypothesis HU : forall i, 0 <= u i < 1.
Hypothesis HA : argsort (tip_backbone_z u n) idx.
Let N := Nat.max 15 n.
Let added := fun i => 0.1 + u i * 0.1.
Let rest := rsort ([0.100; 0.15; 0.200] ++ map added (seq 0 (N - length tip_zs))).
Lemma tip_lh : forall x y, In x tip_low -> In y [0.100; 0.15; 0.200] -> x < y.
Proof. intros x y I J. apply tip_low_range in I. destruct J as [<-|[<-|[<-|[]]]]; lra. Qed.
Lemma tip_la : forall x i, In x tip_low -> x < added i.
Proof. intros x i I. apply tip_low_range in I. unfold added. pose proof (HU i). lra. Qed.
Lemma tip_ln : (length (tip_low ++ [0.100; 0.15; 0.200]%R)%list <= N)%nat.
Proof. unfold N, tip_low. cbn [length app firstn tip_zs]. lia. Qed.
Lemma tip_z_eq : tip_backbone_z u n = tip_low ++ rest.
Proof. exact (back_z tip_low [0.100; 0.15; 0.200] added N tip_low_sorted tip_lh tip_la). Qed.
Lemma tip_z_length : length (tip_backbone_z u n) = N.
Proof. exact (back_length tip_low [0.100; 0.15; 0.200] added N tip_ln). Qed.
Lemma tip_z_sorted : nondecreasing (tip_backbone_z u n). Proof. apply rsort_nd. Qed.
Lemma tip_Q_eq : tip_backbone_Q n idx = tip_Qlow ++ repeat 1 (N - 12).
Proof. exact (back_t tip_low [0.100; 0.15; 0.200] tip_Qlow 1 added N idx tip_low_sorted eq_refl tip_lh tip_la tip_ln HA). Qed.
Lemma tip_rest_range : forall y, In y rest -> 0.1 <= y <= 0.2.
Proof.
  intros y I. apply (rest_in tip_low [0.100; 0.15; 0.200] added N) in I. destruct I as [[<-|[<-|[<-|[]]]]|(i & _ & ->)]; try lra. unfold added. pose proof (HU i). lra.
Qed.
Lemma tip_rest_length : length rest = (N - 12)%nat.
Proof. exact (rest_length tip_low [0.100; 0.15; 0.200] added N tip_low_sorted tip_lh tip_la tip_ln). Qed.
Lemma tip_point : forall p, has_point (tip_backbone_z u n) (tip_backbone_Q n idx) p <->
  In p (combine tip_low tip_Qlow) \/ (In (fst p) rest /\ snd p = 1).
Proof.
  intros [a b]. unfold has_point. rewrite tip_z_eq, tip_Q_eq, combine_app, in_app_iff by reflexivity. apply or_iff_compat_l. simpl. split.
  - intros I. split; [eapply in_combine_l; eauto|]. apply in_combine_r in I. eapply repeat_spec; eauto.
  - intros [I ->]. destruct (In_nth _ _ 0 I) as (i & Hi & <-). rewrite tip_rest_length in Hi.
    assert (E : 1 = nth i (repeat 1 (N - 12)) 0) by (symmetry; apply (repeat_spec (N - 12)); apply nth_In; rewrite repeat_length; auto).
    rewrite E at 1. rewrite <- combine_nth by (rewrite repeat_length; apply tip_rest_length). apply nth_In. rewrite combine_length, repeat_length, tip_rest_length. lia.
Qed.
Lemma tip_Q_length : length (tip_backbone_Q n idx) = N.
Proof. rewrite tip_Q_eq, app_length, repeat_length. change (length tip_Qlow) with 12%nat. unfold N. lia. Qed.
Lemma tip_Q_nd : nondecreasing (tip_backbone_Q n idx).
Proof.
  rewrite tip_Q_eq. apply nondecreasing_app.
  - unfold tip_Qlow. cbn. repeat (apply nondecreasing_cons; [intros x I; cbn in I; repeat (destruct I as [<-|I]; [lra|]); contradiction|]). intros i j _ Hj. simpl in Hj. lia.
  - intros i j Hi Hj. rewrite !(repeat_spec (N - 12) 1 (nth _ _ 0)) by (apply nth_In; lia). lra.
  - intros x y I J. apply repeat_spec in J. subst y. cbn in I. repeat (destruct I as [<-|I]; [lra|]). contradiction.
Qed.
End Tip.

(** The tables *)
Lemma clay_low_points : forall residual tf, combine clay_low (clay_tlow residual tf) =
  [(-0.03, - tf * residual); (-0.02, - tf * residual)] ++ map (fun p => (- fst p, - tf * snd p)) (rev (tl api_clay_points)) ++ api_clay_points.
Proof.
  intros residual tf. cbn [combine clay_low clay_tlow clay_zs clay_ts mirror firstn map rev tl app api_clay_points fst snd].
  replace (- (1) * 0.0300) with (-0.03) by lra. replace (- (1) * 0.0200) with (-0.02) by lra.
  repeat match goal with |- context [- (1) * ?a] => replace (- (1) * a) with (- a) by ring end. reflexivity.
Qed.
Lemma sand_low_points : forall tf, combine sand_low (sand_tlow tf) =
  map (fun z => (- z, - tf)) [0.04; 0.038; 0.036; 0.034; 0.032; 0.03; 0.0254] ++ (0, 0) :: map (fun z => (z, 1)) [0.0254; 0.03; 0.032; 0.034; 0.036].
Proof.
  intros tf. cbn [combine sand_low sand_tlow sand_zs sand_ts mirror firstn map rev tl app].
  repeat match goal with |- context [- (1) * ?a] => replace (- (1) * a) with (- a) by ring end. replace (- tf * 1) with (- tf) by ring. reflexivity.
Qed.
Lemma tip_low_points : combine tip_low tip_Qlow = map (fun z => (z, 0)) [-0.2; -0.15; -0.1; -0.073; -0.042; -0.013; -0.002] ++ firstn 5 api_tip_points.
Proof. reflexivity. Qed.
Lemma scale_point : forall z t c d p, has_point (scale c z) (scale d t) p -> exists q, has_point z t q /\ p = (fst q * c, snd q * d).
Proof. intros z t c d p H. unfold has_point, scale in *. rewrite combine_map2 in H. apply in_map_iff in H. destruct H as (q & <- & I). exists q. auto. Qed.
Lemma scale_nd : forall c l, 0 <= c -> nondecreasing l -> nondecreasing (scale c l).
Proof. intros c l H N. apply nondecreasing_map; auto. intros x y _ _ L. apply Rmult_le_compat_r; auto. Qed.
Lemma scale_length : forall c l, length (scale c l) = length l.
Proof. intros. apply map_length. Qed.
Lemma scale_max : forall c x l, 0 <= c -> is_max x l -> is_max (x * c) (scale c l).
Proof. intros c x l H [I B]. split; [apply in_map_iff; eauto|]. intros v J. apply in_map_iff in J. destruct J as (w & <- & J). apply Rmult_le_compat_r; auto. Qed.
Lemma scale_min : forall c x l, 0 <= c -> is_min x l -> is_min (x * c) (scale c l).
Proof. intros c x l H [I B]. split; [apply in_map_iff; eauto|]. intros v J. apply in_map_iff in J. destruct J as (w & <- & J). apply Rmult_le_compat_r; auto. Qed.
Lemma scale_scale : forall a b l, scale a (scale b l) = scale (b * a) l.
Proof. intros. unfold scale. rewrite map_map. apply map_ext. intros. ring. Qed.
