(** Lemmas about the construction of soil models. *)
From Coq Require Import String Reals Lra Lia List Bool Arith.
From Verif Require Import Base ConicModel ConicSpec PisaModel ApiSandModel ApiClayModel ReeseModel AxialModel AxialSpec AxialProofs LateralModel LateralSpec LateralProofs MomentProofs FieldModel FieldSpec.
Import ListNotations.
Local Open Scope R_scope.

Lemma leb_iff : forall x y, leb x y = true <-> x <= y.
Proof. intros x y. unfold leb. destruct (Rle_dec x y); split; intros; auto; discriminate. Qed.
Lemma ltb_iff : forall x y, ltb x y = true <-> x < y.
Proof. intros x y. unfold ltb. destruct (Rlt_dec x y); split; intros; auto; discriminate. Qed.
Lemma above : forall a x, ok (Above a) x = true <-> a < x. Proof. intros. apply ltb_iff. Qed.
Lemma at_least : forall a x, ok (AtLeast a) x = true <-> a <= x. Proof. intros. apply leb_iff. Qed.
Lemma within_iff : forall a b x, ok (Within a b) x = true <-> a <= x <= b.
Proof. intros. cbn [ok]. rewrite andb_true_iff, !leb_iff. tauto. Qed.
Lemma half_open : forall a b x, ok (HalfOpen a b) x = true <-> a <= x < b.
Proof. intros. cbn [ok]. rewrite andb_true_iff, leb_iff, ltb_iff. tauto. Qed.

Lemma field_iff : forall r (P : R -> Prop) fn p, (forall x, ok r x = true <-> P x) -> (field r r fn p = true <-> all_numbers P (fn = true) p).
Proof.
  intros r P fn p H. destruct p as [x|l|f]; cbn [field all_numbers]; [apply H| |tauto].
  destruct l as [|x [|y [|z l]]]; cbn [length Nat.leb andb forallb]; rewrite ?andb_true_r, ?andb_true_iff, ?H; split; intros K; try discriminate; try contradiction; auto.
Qed.
Lemma positive_iff : forall p, positive p = true <-> all_numbers gt0 False p.
Proof. intros p. unfold positive. rewrite (field_iff _ gt0 _ _ (above 0)). destruct p as [|[|? [|? [|]]]|]; cbn [all_numbers]; try tauto. split; [discriminate|tauto]. Qed.
Lemma positive_fn_iff : forall p, positive_or_function p = true <-> all_numbers gt0 True p.
Proof. intros p. unfold positive_or_function. rewrite (field_iff _ gt0 _ _ (above 0)). destruct p as [|[|? [|? [|]]]|]; cbn [all_numbers]; try tauto. Qed.
Lemma curvature_iff : forall p, curvature_field p = true <-> all_numbers (fun x => 0 <= x < 1) True p.
Proof. intros p. unfold curvature_field. rewrite (field_iff _ (fun x => 0 <= x < 1) _ _ (half_open 0 1)). destruct p as [|[|? [|? [|]]]|]; cbn [all_numbers]; try tauto. Qed.
Lemma phi_iff : forall p, field (Within 15 45) (Within 15 45) false p = true <-> all_numbers (fun x => 15 <= x <= 45) False p.
Proof. intros p. rewrite (field_iff _ (fun x => 15 <= x <= 45) _ _ (within_iff 15 45)). destruct p as [|[|? [|? [|]]]|]; cbn [all_numbers]; try tauto. split; [discriminate|tauto]. Qed.
Lemma res_mult_iff : forall m, resistance_multiplier m = true <-> number_ok (Rle 0) m.
Proof. intros [c|f]; cbn [resistance_multiplier number_ok]; [apply at_least|tauto]. Qed.
Lemma disp_mult_iff : forall m, displacement_multiplier m = true <-> number_ok gt0 m.
Proof. intros [c|f]; cbn [displacement_multiplier number_ok]; [apply above|tauto]. Qed.
Lemma four_iff : forall f, four_fields f = true <-> conic_in_range f.
Proof. intros f. unfold four_fields, conic_in_range. rewrite !andb_true_iff, !positive_fn_iff, curvature_iff. tauto. Qed.

Lemma fields_iff : forall m, lateral_fields m = true <-> parameters_in_range m /\ multipliers_in_range m.
Proof.
  intros m. unfold multipliers_in_range. destruct m; cbn [lateral_fields parameters_in_range p_multiplier y_multiplier m_multiplier t_multiplier]; unfold mults_ok, py_ok;
    rewrite ?andb_true_iff, ?positive_iff, ?positive_fn_iff, ?phi_iff, ?four_iff, ?res_mult_iff, ?disp_mult_iff, ?within_iff, ?at_least; cbn [number_ok].
  all: assert (Z1 : 0 <= 1) by lra; assert (Z2 : gt0 1) by (unfold gt0; lra).
  1,2,3,8,9: tauto.
  2,3,4: tauto.
  assert (K : match k with Some p => positive p | None => true end = true <-> forall p, k = Some p -> all_numbers gt0 False p).
  { destruct k as [p|]; [rewrite positive_iff; split; [intros A q E; injection E as <-; auto|auto]|split; [discriminate|auto]]. }
  rewrite K. tauto.
Qed.

Lemma numbers_values : forall P p, all_numbers P False p -> all_values P p.
Proof. intros P p. destruct p as [x|[|x [|y [|z l]]]|f]; cbn [all_numbers all_values]; tauto. Qed.
Lemma numbers_custom : forall P p X, all_numbers P True p -> ~ is_function p -> custom_values P p X.
Proof. intros P p X A N. destruct p as [x|[|x [|y [|z l]]]|f]; cbn in *; try tauto. exfalso. apply N. exists f. reflexivity. Qed.

Lemma plain_at : forall P m X, number_ok P m -> plain_multiplier m -> P (at_X m X).
Proof. intros P m X N (c & ->). exact N. Qed.

(** ** A number and the list of it *)
Lemma in_layer_one : forall p d h, in_layer (rewrite_number (fun x => [x]) p) d h = in_layer p d h.
Proof. intros [x|l|f] d h; reflexivity. Qed.
Lemma in_layer_two : forall p d h, in_layer (rewrite_number (fun x => [x; x]) p) d h = in_layer p d h.
Proof. intros [x|l|f] d h; reflexivity. Qed.
Section Rewrite.
Variable g : R -> list R.
Hypothesis HG : forall p d h, in_layer (rewrite_number g p) d h = in_layer p d h.
Lemma rw_value : forall p q, value (rewrite_number g p) q = value p q. Proof. intros. apply HG. Qed.
Lemma rw_custom : forall p q, custom_value (rewrite_number g p) q = custom_value p q.
Proof. intros p q. unfold custom_value, at_current_depth. pose proof (HG p (q_depth q) (q_height q)) as E. destruct p; auto. Qed.
Lemma rw_subgrade : forall phi k modif q, subgrade phi (option_map (rewrite_number g) k) modif q = subgrade phi k modif q.
Proof. intros phi [p|] modif q; cbn [option_map]; [|reflexivity]. unfold subgrade. rewrite rw_value. reflexivity. Qed.
Ltac rw := unfold with_four; cbn [rewrite_four f_X f_n f_k f_Y]; rewrite ?rw_value, ?rw_custom; try reflexivity.
Lemma rw_py : forall m u q ymax n, py_curve (rewrite_model g m) u q ymax n = py_curve m u q ymax n.
Proof.
  intros m u q ymax n. destruct m; cbn [rewrite_model py_curve]; rw.
  destruct (value phi q) as [v|e]; cbn [bind]; [|reflexivity]. rewrite rw_subgrade. reflexivity.
Qed.
Lemma rw_spring : forall m u q ymax n, py_spring_fct (rewrite_model g m) u q ymax n = py_spring_fct m u q ymax n.
Proof. intros m u q ymax n. unfold py_spring_fct. rewrite rw_py. destruct m; reflexivity. Qed.
Lemma rw_Hb : forall m q ymax n, Hb_spring_fct (rewrite_model g m) q ymax n = Hb_spring_fct m q ymax n.
Proof. intros m q ymax n. destruct m; cbn [rewrite_model Hb_spring_fct]; rw. Qed.
Lemma rw_Mb : forall m q ymax n, Mb_spring_fct (rewrite_model g m) q ymax n = Mb_spring_fct m q ymax n.
Proof. intros m q ymax n. destruct m; cbn [rewrite_model Mb_spring_fct]; rw. Qed.
Lemma rw_mt : forall m u idx q ymax n, mt_spring_fct (rewrite_model g m) u idx q ymax n = mt_spring_fct m u idx q ymax n.
Proof.
  intros m u idx q ymax n. assert (E : mt_curve (rewrite_model g m) u idx q ymax n = mt_curve m u idx q ymax n).
  { destruct m; pose proof (rw_spring (API_sand phi kind k modif extension pm ym) u q ymax n) as ES || idtac; cbn [rewrite_model mt_curve] in *; rw.
    destruct (value phi q) as [v|e]; cbn [bind]; [|reflexivity]. rewrite ES. reflexivity. }
  unfold mt_spring_fct. rewrite E. destruct m; reflexivity.
Qed.
End Rewrite.
Section Same.
Variable g : R -> list R.
Hypothesis HF : forall r x, forallb (ok r) (g x) = ok r x.
Hypothesis HL : forall x, (1 <= length (g x) <= 2)%nat.
Lemma same_field : forall r fn p, field r r fn (rewrite_number g p) = field r r fn p.
Proof.
  intros r fn p. destruct p as [x|l|f]; cbn [rewrite_number field]; try reflexivity. rewrite HF. destruct (HL x) as [A B].
  apply Nat.leb_le in A. apply Nat.leb_le in B. rewrite A, B. reflexivity.
Qed.
Lemma same_fields : forall m, lateral_fields (rewrite_model g m) = lateral_fields m.
Proof.
  intros m. destruct m; cbn [rewrite_model lateral_fields]; unfold four_fields, positive, positive_or_function, curvature_field; cbn [rewrite_four f_X f_n f_k f_Y]; rewrite ?same_field; try reflexivity.
  destruct k; cbn [option_map]; rewrite ?same_field; reflexivity.
Qed.
End Same.
Lemma one_ok : forall r x, forallb (ok r) [x] = ok r x. Proof. intros. cbn [forallb]. apply andb_true_r. Qed.
Lemma two_ok : forall r x, forallb (ok r) [x; x] = ok r x. Proof. intros. cbn [forallb]. rewrite andb_true_r. destruct (ok r x); reflexivity. Qed.

(** ** Friction angles above a right angle *)
Lemma tan_obtuse : forall d, 90 < d < 180 -> tan (d * PI / 180) < 0.
Proof.
  intros d H. pose proof PI_RGT_0 as P. assert (A : PI / 2 < d * PI / 180 < PI) by (split; nra).
  unfold tan. assert (S1 : 0 < sin (d * PI / 180)) by (apply sin_gt_0; lra). assert (C1 : cos (d * PI / 180) < 0) by (apply cos_lt_0; lra).
  assert (/ cos (d * PI / 180) < 0) by (apply Rinv_lt_0_compat; auto). unfold Rdiv. nra.
Qed.

(** ** Keywords *)
Section Kw.
Context {V : Type}.
Lemma lookup_other : forall k k' (v : V) kw, k <> k' -> lookup k (kw ++ [(k', v)]) = lookup k kw.
Proof.
  intros k k' v kw N. induction kw as [|[n w] t IH]; cbn [lookup app].
  - destruct (String.eqb k' k) eqn:E; [|reflexivity]. apply String.eqb_eq in E. congruence.
  - rewrite IH. reflexivity.
Qed.
Lemma declared_in : forall (fields : list (string * option V)) f, In f fields -> declared fields (fst f) = true.
Proof. intros fields f I. unfold declared. apply existsb_exists. exists f. split; auto. apply String.eqb_refl. Qed.
Lemma mapM_eq : forall A B (f h : A -> res B) l, (forall x, In x l -> f x = h x) -> mapM f l = mapM h l.
Proof. intros A B f h l. induction l as [|a t IH]; intros E; [reflexivity|]. cbn [mapM]. rewrite E by (left; auto). rewrite IH; [reflexivity|]. intros x I. apply E. right; auto. Qed.
End Kw.

(** ** The check of multipliers *)
Lemma stops_false : forall a v, stops a v = false <-> (exists x, v = Some x /\ acceptable a x) \/ (v = None /\ (a = P_axis \/ a = M_axis)).
Proof.
  intros a v. destruct a, v as [x|]; cbn [stops acceptable]; split; intros H; try discriminate; auto.
  all: try (left; exists x; split; [reflexivity|]).
  all: try (destruct (Rle_dec 0 x) as [L|L]; [exact L|exfalso; apply Rnot_le_lt in L; apply ltb_iff in L; congruence]).
  all: try (apply negb_false_iff in H; apply ltb_iff in H; exact H).
  all: try (destruct H as [(y & E & K)|(E & _)]; [injection E as <-|discriminate]; unfold ltb; destruct (Rlt_dec _ _); cbn; try reflexivity; exfalso; lra).
  all: destruct H as [(y & E & _)|(_ & [E|E])]; discriminate.
Qed.
Lemma check_values_err : forall a f ds e, check_values a f ds = Err e <-> first_exception a f ds e.
Proof.
  intros a f ds e. induction ds as [|d t IH]; cbn [check_values].
  - split; [discriminate|]. intros (b & d & c & E & _). destruct b; discriminate.
  - assert (ST : forall (R0 : f d = Raises e), first_exception a f (d :: t) e). { intros R0. exists [], d, t. repeat split; auto. intros x []. }
    assert (CO : first_exception a f (d :: t) e -> f d = Raises e \/ (((exists v, f d = Float (Some v) /\ acceptable a v) \/ (f d = Float None /\ (a = P_axis \/ a = M_axis))) /\ first_exception a f t e)).
    { intros (b & d' & c & E & FR & FB). destruct b as [|b0 b]; injection E as -> ->; [left; exact FR|right]. split; [apply FB; left; auto|]. exists b, d', c. repeat split; auto. intros x I. apply FB. right; auto. }
    assert (MK : (exists v, f d = Float (Some v) /\ acceptable a v) \/ (f d = Float None /\ (a = P_axis \/ a = M_axis)) -> first_exception a f t e -> first_exception a f (d :: t) e).
    { intros G (b & d' & c & -> & FR & FB). exists (d :: b), d', c. repeat split; auto. intros x [<-|I]; auto. }
    destruct (f d) as [v| |e'] eqn:F.
    + destruct (stops a v) eqn:S0.
      * split; [discriminate|]. intros C. apply CO in C. destruct C as [C|[C _]]; [discriminate|]. exfalso. enough (stops a v = false) by congruence. apply stops_false.
        destruct C as [(x & E & A)|(E & A)]; injection E as ->; [left; eauto|right; auto].
      * rewrite IH. apply stops_false in S0. split; intros C; [apply MK; auto; destruct S0 as [(x & -> & A)|(-> & A)]; [left; eauto|right; auto]|]. apply CO in C. destruct C as [C|[_ C]]; [discriminate|exact C].
    + split; [discriminate|]. intros C. apply CO in C. destruct C as [C|[[(x & C & _)|(C & _)] _]]; discriminate.
    + split; [intros E; injection E as ->; apply ST; reflexivity|]. intros C. apply CO in C. destruct C as [C|[[(x & C & _)|(C & _)] _]]; congruence.
Qed.
Lemma check_values_ok : forall a f ds, (forall d e, In d ds -> f d <> Raises e) -> check_values a f ds = Ok tt.
Proof.
  intros a f ds H. destruct (check_values a f ds) as [[]|e] eqn:E; [reflexivity|]. apply check_values_err in E. destruct E as (b & d & c & -> & FR & _).
  exfalso. apply (H d e); [apply in_app_iff; right; left; reflexivity|exact FR].
Qed.
Lemma linspace_100 : forall a b, linspace a b 100 = map (fun i => a + (b - a) * (INR i / 99)) (seq 0 100).
Proof. intros a b. unfold linspace. apply map_ext. intros i. do 3 f_equal. replace 99%nat with (Z.to_nat 99) by reflexivity. rewrite INR_IZR_INZ. f_equal. Qed.
Lemma depths_in : forall ground top bottom d, bottom < top -> In d (depths ground top bottom) -> ground - top <= d <= ground - bottom.
Proof.
  intros ground top bottom d H I. unfold depths in I. rewrite linspace_100 in I. apply in_map_iff in I. destruct I as (z & <- & I). apply in_map_iff in I. destruct I as (i & <- & I). apply in_seq in I.
  assert (L1 : 0 <= INR i) by apply pos_INR. assert (L2 : INR i <= 99). { replace 99 with (INR 99) by (rewrite INR_IZR_INZ; reflexivity). apply le_INR. lia. }
  assert (F : 0 <= INR i / 99 <= 1) by (split; lra). nra.
Qed.
Lemma depths_ends : forall ground top bottom, length (depths ground top bottom) = 100%nat /\ nth 0 (depths ground top bottom) 0 = ground - top /\ nth 99 (depths ground top bottom) 0 = ground - bottom.
Proof.
  intros ground top bottom. unfold depths. rewrite linspace_100, map_map. split; [rewrite map_length, seq_length; reflexivity|].
  set (h := fun i : nat => ground - (top + (bottom - top) * (INR i / 99))).
  assert (N : forall k, (k < 100)%nat -> nth k (map h (seq 0 100)) 0 = h k). { intros k Hk. rewrite nth_indep with (d' := h 0%nat) by (rewrite map_length, seq_length; auto). rewrite map_nth, seq_nth by auto. reflexivity. }
  rewrite !N by lia. unfold h. split; [cbn [INR]; lra|]. replace (INR 99) with 99 by (rewrite INR_IZR_INZ; reflexivity). lra.
Qed.
Lemma check_layers_app : forall ground l l', check_multipliers ground (l ++ l') = bind (check_multipliers ground l) (fun _ => check_multipliers ground l').
Proof. intros ground l l'. induction l as [|a t IH]; [reflexivity|]. cbn [check_multipliers app]. rewrite IH. destruct (check_layer ground a); reflexivity. Qed.

(** ** A conic function with a negative ultimate displacement: full resistance at zero displacement *)
Lemma mapM_app : forall A B (f : A -> res B) l x ys y, mapM f l = Ok ys -> f x = Ok y -> mapM f (l ++ [x]) = Ok (ys ++ [y]).
Proof.
  intros A B f l x. induction l as [|a t IH]; intros ys y E F; cbn [mapM app] in *.
  - injection E as <-. rewrite F. reflexivity.
  - destruct (f a) as [b|e]; cbn [bind] in *; [|discriminate]. destruct (mapM f t) as [r|e]; cbn [bind] in *; [|discriminate]. injection E as <-. rewrite (IH r y eq_refl F). reflexivity.
Qed.
Lemma mapM_const : forall A B (f : A -> res B) v l, (forall x, In x l -> f x = Ok v) -> mapM f l = Ok (repeat v (length l)).
Proof. intros A B f v l. induction l as [|a t IH]; intros H; [reflexivity|]. cbn [mapM length repeat]. rewrite H by (left; auto). rewrite IH by (intros x I; apply H; right; auto). reflexivity. Qed.
Lemma linspace_between : forall a b m x, a <= b -> In x (linspace a b m) -> a <= x <= b.
Proof.
  intros a b m x H I. destruct m as [|[|m]]; cbn [linspace] in I; [contradiction|destruct I as [<-|[]]; lra|].
  apply in_map_iff in I. destruct I as (i & <- & I). apply in_seq in I.
  assert (P : 0 < INR (S m)) by (apply lt_0_INR; lia). assert (L1 : 0 <= INR i) by apply pos_INR. assert (L2 : INR i <= INR (S m)) by (apply le_INR; lia).
  assert (F : 0 <= INR i / INR (S m) <= 1). { split; [apply Rmult_le_pos; [auto|left; apply Rinv_0_lt_compat; auto]|]. apply Rmult_le_reg_r with (INR (S m)); auto. unfold Rdiv. rewrite Rmult_assoc, Rinv_l by lra. lra. }
  nra.
Qed.
Lemma linspace_down : forall a b m x, b <= a -> In x (linspace a b m) -> b <= x <= a.
Proof.
  intros a b m x H I. destruct m as [|[|m]]; cbn [linspace] in I; [contradiction|destruct I as [<-|[]]; lra|].
  apply in_map_iff in I. destruct I as (i & <- & I). apply in_seq in I.
  assert (P : 0 < INR (S m)) by (apply lt_0_INR; lia). assert (L1 : 0 <= INR i) by apply pos_INR. assert (L2 : INR i <= INR (S m)) by (apply le_INR; lia).
  assert (F : 0 <= INR i / INR (S m) <= 1). { split; [apply Rmult_le_pos; [auto|left; apply Rinv_0_lt_compat; auto]|]. apply Rmult_le_reg_r with (INR (S m)); auto. unfold Rdiv. rewrite Rmult_assoc, Rinv_l by lra. lra. }
  nra.
Qed.
Lemma linspace_length : forall a b m, length (linspace a b m) = m.
Proof. intros a b m. destruct m as [|[|m]]; [reflexivity|reflexivity|]. unfold linspace. rewrite map_length, seq_length. reflexivity. Qed.
Definition last_disc (n k yu : R) (xu : R) : R :=
  let x := 11/10 * xu in let b := 2 * n * x / xu - (1 - n) * (1 + x * k / yu) in
  b ^ 2 - 4 * (1 - 2 * n) * (x * (k / yu) * (1 - n) - n * (x ^ 2 / xu ^ 2)).
Lemma conic_negative : forall xu n k yu m, xu < - 1 -> yu <> 0 -> (5 <= m)%nat -> last_disc n (Rmax (yu / xu) k) yu xu < 0 ->
  conic xu n k yu m = Ok (conic_x xu m, repeat (Some yu) (m - 1) ++ [None]).
Proof.
  intros xu n k yu m HX HY HM HD. unfold conic. destruct (Req_EM_T xu 0); [lra|]. rewrite (proj2 (Nat.ltb_ge m 5) HM).
  set (kk := Rmax (yu / xu) k) in *. set (f := conic_point xu n kk yu).
  assert (FL : f (11/10 * xu) = Ok None).
  { unfold f, conic_point. assert (A : Rabs (11 / 10 * xu - xu) = - (xu / 10)) by (rewrite Rabs_left; lra). rewrite A. destruct (Rlt_dec (- (xu / 10)) (1 / 100)); [lra|].
    destruct (Rlt_dec (11 / 10 * xu) xu); [|lra]. destruct (Req_EM_T yu 0); [contradiction|]. fold (last_disc n kk yu xu). unfold last_disc in HD. cbv zeta in *. destruct (Rlt_dec _ 0) as [|NL]; [reflexivity|contradiction]. }
  set (front := map (fun c => c * xu) [0; 2 / 100; 5 / 100; 1 / 10] ++ linspace (2 / 10 * xu) xu (m - 5)).
  assert (FF : mapM f front = Ok (repeat (Some yu) (length front))).
  { apply mapM_const. intros x I. assert (B : xu <= x). { apply in_app_iff in I. destruct I as [I|I]; [|apply linspace_down in I; lra]. cbn [map] in I. destruct I as [<-|[<-|[<-|[<-|[]]]]]; lra. }
    unfold f, conic_point. destruct (Rlt_dec (Rabs (x - xu)) (1 / 100)); [reflexivity|]. destruct (Rlt_dec x xu); [lra|reflexivity]. }
  assert (EX : conic_x xu m = front ++ [11 / 10 * xu]). { unfold conic_x, front. rewrite <- app_assoc. reflexivity. }
  rewrite EX, (mapM_app _ _ f front _ _ _ FF FL). cbn [bind]. do 4 f_equal. unfold front. rewrite app_length, map_length, linspace_length. cbn [length]. lia.
Qed.
Lemma conic_x_negative : forall xu m x, xu < 0 -> In x (conic_x xu m) -> x <= 0.
Proof.
  intros xu m x H I. unfold conic_x in I. rewrite !in_app_iff in I. destruct I as [I|[I|I]].
  - cbn [map] in I. destruct I as [<-|[<-|[<-|[<-|[]]]]]; lra.
  - apply linspace_down in I; lra.
  - destruct I as [<-|[]]. lra.
Qed.
Lemma dunkirk_200 : forall sig G0 D L m, 0 < D -> 0 < L -> 0 < G0 -> (8 <= m)%nat ->
  py_dunkirk sig 0 200 G0 D L m = Ok (map (fun v => v * (sig * D / G0)) (conic_x (-38.12) m), repeat (Some (52.1467 * (sig * D))) (m - 1) ++ [None]).
Proof.
  intros sig G0 D L m HD HL HG HM. unfold py_dunkirk, nonzero. destruct (Req_EM_T D 0); [lra|]. destruct (Req_EM_T L 0); [lra|].
  rewrite Nat.max_r by auto. replace (146.1 - 92.11 * (200 / 100)) with (-38.12) by lra. replace (0.917 + 0.06193 * (200 / 100)) with 1.04086 by lra.
  replace (8.731 - 0.6982 * (200 / 100) + -0.9178 * 0 / D) with 7.3346 by (unfold Rdiv; rewrite Rmult_0_r, Rmult_0_l; lra).
  replace (0.3667 + 25.89 * (200 / 100) + (0.3375 - 8.9 * (200 / 100)) * 0 / L) with 52.1467 by (unfold Rdiv; rewrite Rmult_0_r, Rmult_0_l; lra).
  rewrite conic_negative; [|lra|lra|lia|].
  - cbn [scaled bind fst snd]. unfold scaled, nonzero. cbn [bind fst snd]. destruct (Req_EM_T G0 0); [lra|].
    rewrite map_app. cbn [map option_map]. do 3 f_equal. induction (m - 1)%nat as [|j IH]; [reflexivity|]. cbn [repeat map option_map]. rewrite IH. reflexivity.
  - rewrite Rmax_right by lra. unfold last_disc. lra.
Qed.
