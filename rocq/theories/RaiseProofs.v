(** Lemmas for C145: the exceptions of Model(...) are those of the spring functions. *)
From Coq Require Import List Bool Arith ZArith QArith Qabs Reals Qreals Permutation Lia Lqa Lra.
From Verif Require Import Base PileModel PileSpec PileProofs MeshModel MeshSpec StressModel StressSpec BeamModel SolveModel CreateModel CreateProofs CreateProps WholeModel WholeSpec CallProofs AxialModel LateralModel LateralSpec LateralProofs
  CapacityModel CapacitySpec CapacityProofs FullModel FullSpec FullProofs SiteProofs ObjectModel ObjectProofs RaiseSpec.
Import ListNotations.
Local Open Scope Q_scope.

(** ** Storing *)
Lemma curve_fails : forall rnd r er, store_curve rnd r = Err er -> fails fits_curve er r.
Proof.
  intros rnd [[y p]|e] er H; cbn [store_curve bind] in H; [|left; congruence]. destruct (Nat.eqb (length y) 15 && Nat.eqb (length p) 15) eqn:E; [discriminate|].
  right. split; [congruence|]. exists (y, p). split; [reflexivity|]. intros [A B]. cbn [fst snd] in A, B. rewrite A, B in E. discriminate.
Qed.
Lemma curve_returns : forall rnd r v, store_curve rnd r = Ok v -> returns fits_curve r.
Proof.
  intros rnd [[y p]|e] v H; cbn [store_curve bind] in H; [|discriminate]. destruct (Nat.eqb (length y) 15 && Nat.eqb (length p) 15) eqn:E; [|discriminate].
  apply andb_prop in E. destruct E as [A B]. apply Nat.eqb_eq in A, B. exists (y, p). split; [reflexivity|split; auto].
Qed.
Lemma rows_ok : forall A (l : list (list A)), forallb (fun r => Nat.eqb (length r) 15) l = true <-> forall r, In r l -> length r = 15%nat.
Proof. intros A l. rewrite forallb_forall. split; intros H r I; specialize (H r I); [apply Nat.eqb_eq in H; exact H|apply Nat.eqb_eq; exact H]. Qed.
Lemma curves_fails : forall rnd r er, store_curves rnd r = Err er -> fails fits_curves er r.
Proof.
  intros rnd [[T M]|e] er H; cbn [store_curves bind] in H; [|left; congruence].
  destruct (Nat.eqb (length T) 15 && Nat.eqb (length M) 15 && forallb (fun r => Nat.eqb (length r) 15) T && forallb (fun r => Nat.eqb (length r) 15) M) eqn:E; [discriminate|].
  right. split; [congruence|]. exists (T, M). split; [reflexivity|]. intros (A & B & C & D). cbn [fst snd] in *. apply rows_ok in C, D. rewrite A, B, C, D in E. discriminate.
Qed.
Lemma curves_returns : forall rnd r v, store_curves rnd r = Ok v -> returns fits_curves r.
Proof.
  intros rnd [[T M]|e] v H; cbn [store_curves bind] in H; [|discriminate].
  destruct (Nat.eqb (length T) 15 && Nat.eqb (length M) 15 && forallb (fun r => Nat.eqb (length r) 15) T && forallb (fun r => Nat.eqb (length r) 15) M) eqn:E; [|discriminate].
  apply andb_prop in E. destruct E as [E D]. apply andb_prop in E. destruct E as [E C]. apply andb_prop in E. destruct E as [A B]. apply Nat.eqb_eq in A, B.
  exists (T, M). split; [reflexivity|]. split; [exact A|]. split; [exact B|]. split; [exact (proj1 (rows_ok _ _) C)|exact (proj1 (rows_ok _ _) D)].
Qed.
Lemma axial_fails : forall rnd r er, store_axial rnd r = Err er -> fails fits_axial er r.
Proof.
  intros rnd [[[z t]|]|e] er H; cbn [store_axial bind] in H; [|discriminate|left; congruence]. destruct (Nat.eqb (length z) 15 && Nat.eqb (length t) 15) eqn:E; [discriminate|].
  right. split; [congruence|]. exists (Some (z, t)). split; [reflexivity|]. intros [A B]. rewrite A, B in E. discriminate.
Qed.
Lemma axial_returns : forall rnd r v, store_axial rnd r = Ok v -> returns fits_axial r.
Proof.
  intros rnd [[[z t]|]|e] v H; cbn [store_axial bind] in H; [|exists None; split; [reflexivity|exact Logic.I]|discriminate].
  destruct (Nat.eqb (length z) 15 && Nat.eqb (length t) 15) eqn:E; [|discriminate]. apply andb_prop in E. destruct E as [A B]. apply Nat.eqb_eq in A, B. exists (Some (z, t)). split; [reflexivity|split; auto].
Qed.

Lemma first_is : forall l e, first_error l = Some e -> In (Err e) l.
Proof. induction l as [|[r|e'] l IH]; intros e H; cbn [first_error] in H; [discriminate|right; auto|left; congruence]. Qed.

Section Reach.
Variables (rnd : R -> Q) (ch : chance) (sort : list (Q * section) -> list (Q * section)) (o : options) (sections : list section) (gr wt : Q) (ys : list soil_layer)
  (x : list Q) (c : Q) (p : list section) (t b : Q) (m : list Q).
Hypothesis SO : forall rows, ascending_of (sort rows) rows.
Hypothesis SS : sound_site o sections gr wt (map without ys) x c p t b m.
Notation ls := (map y_layer ys).
Notation st sg := (setting_of o p b (sort (data_rows p)) gr wt ls m sg).
Notation layers ta fp := (map (slayer_of rnd ch ta fp) ys).

(** Everything but the springs goes well *)
Lemma construct_is : exists s sg, last_section p = Ok s /\ stress ls gr wt (elements_of m) = Ok sg /\ (exists sd, fits sections p b (map (slayer_of rnd ch (s_area s) (s_footprint s)) (map without ys)) sd (st sg) x c m) /\
  construct rnd ch sort o sections gr wt ys x c = match first_error (flat_map (calls_of (st sg)) (work (st sg) (layers (s_area s) (s_footprint s)))) with
    | Some e => Err e | None => Ok (Some (mkBuilt p m (st sg) (create_springs (st sg) (layers (s_area s) (s_footprint s))))) end.
Proof using SS SO.
  pose proof SS as [[S1 S2 S3 S4 S5 S6 S7 S8 S9] FI (d & PD & ES & SB) TI WE WA OU SL]. rewrite without_layers in *.
  assert (ND : d <> []) by (intros ->; cbn in SB; Lqa.lra).
  assert (LS : exists s, last_section p = Ok s). { unfold pile_bottom in S4. destruct (last_section p) as [s|]; [eauto|discriminate]. }
  destruct LS as (s & LS). assert (TA : tip_area p = Ok (s_area s)) by (unfold tip_area; rewrite LS; reflexivity). assert (FP : tip_footprint p = Ok (s_footprint s)) by (unfold tip_footprint; rewrite LS; reflexivity).
  destruct (site_fits rnd ch sort o sections gr wt (map without ys) x c p t b m SS (s_area s) (s_footprint s)) as (sd & sg & F & SG). rewrite without_layers in F, SG.
  exists s, sg. split; [exact LS|]. split; [exact SG|]. split; [exists sd; exact F|].
  unfold construct. rewrite S2. cbn [bind]. rewrite (stack_profile gr ls d ND PD ES). cbn [bind]. unfold pile_length. rewrite S3, S4. cbn [bind].
  assert (AC : accept_model (t - b) c b (Some (profile_bottom gr ls)) = Ok tt).
  { apply accept_iff. split; [exact S5|]. split; [exact FI|]. intros b' E. injection E as <-. rewrite (stack_depth gr ls d PD ES). exact SB. }
  rewrite AC. cbn [bind]. rewrite S6, SG. cbn [bind]. rewrite TA, FP. cbn [bind]. cbv zeta. unfold make_springs.
  destruct (first_error _); reflexivity.
Qed.

Section Called.
Variables (ta fp : Q) (sd : list (@slayer stored_value)) (sg : list nanQ * list nanQ).
Hypothesis F : fits sections p b (map (slayer_of rnd ch ta fp) (map without ys)) sd (st sg) x c m.
Hypothesis SG : stress ls gr wt (elements_of m) = Ok sg.
Notation W := (work (st sg) (layers ta fp)).

Lemma work_is : forall sl i, In (sl, i) W <-> exists y, In y ys /\ sl = slayer_of rnd ch ta fp y /\ in_layer m y i.
Proof using.
  intros sl i. rewrite in_work. split.
  - intros (I & L & A & B). apply in_map_iff in I. destruct I as (y & <- & I). exists y. split; [exact I|]. split; [reflexivity|]. split; [exact L|split; [exact A|exact B]].
  - intros (y & I & -> & L & A & B). split; [apply in_map; exact I|]. split; [exact L|split; [exact A|exact B]].
Qed.

Lemma work_without : forall y i, In y ys -> in_layer m y i -> In (slayer_of rnd ch ta fp (without y), i) (work (st sg) (map (slayer_of rnd ch ta fp) (map without ys))).
Proof using. intros y i I (L & A & B). apply in_work. split; [apply in_map, in_map; exact I|]. split; [exact L|split; [exact A|exact B]]. Qed.

Lemma shaft_at : forall y i j, In y ys -> in_layer m y i -> exists s, nearby sections s (nth i (elements_of m) (0, 0)) /\ let a := shaft_args (st sg) (y_layer y) i j in let z := height_of m i j in
  axial_place ls gr wt (y_layer y) z s a /\ forall A (f : place -> res A) store, at_place a f store = store (f (spot ls gr wt b (y_layer y) z (gr - z) (s_width s))).
Proof using SS SO F SG.
  intros y i j I L. pose proof (called_shaft rnd ch sort o sections gr wt (map without ys) x c p t b m SO SS ta fp sd sg) as CS. rewrite without_layers in CS.
  destruct (CS F SG (without y) i j (in_map _ _ _ I) (work_without y i I L)) as (s & _ & NB & C0). cbv zeta in C0. cbn [y_layer without] in C0.
  destruct C0 as (_ & _ & AP & _ & _ & _ & _ & _ & AT). exists s. split; [exact NB|]. cbv zeta. split; [exact AP|exact AT].
Qed.
Lemma base_at : forall y i, In y ys -> in_layer m y i -> tip_in (st sg) (y_layer y) = true -> exists s, nearby sections s (nth i (elements_of m) (0, 0)) /\ let a := base_args (st sg) (y_layer y) i in
  (exists sig, a_sig a = Some sig /\ sig == overburden ls wt b) /\ a_D a = Some (s_width s) /\ forall A (f : place -> res A) store, at_place a f store = store (f (base_spot gr wt b ys y s)).
Proof using SS SO F SG.
  intros y i I L T. pose proof (called_base rnd ch sort o sections gr wt (map without ys) x c p t b m SO SS ta fp sd sg) as CS. rewrite without_layers in CS.
  destruct (CS F SG (without y) i (in_map _ _ _ I) (work_without y i I L) T) as (s & _ & NB & _ & C0). cbv zeta in C0. cbn [y_layer without] in C0.
  destruct C0 as (SI & AD & _ & _ & _ & AT). exists s. split; [exact NB|]. cbv zeta. split; [exact SI|]. split; [exact AD|exact AT].
Qed.
Lemma tip_within : forall y, tip_in (st sg) (y_layer y) = true <-> within (y_layer y) b.
Proof using.
  intros y. unfold tip_in, within. cbn [tip setting_of]. rewrite andb_true_iff, !Qle_bool_iff. tauto.
Qed.

(** A call that raises is one of the six *)
Lemma raised_by : forall e, In (Err e) (flat_map (calls_of (st sg)) W) -> exists y i, In y ys /\ in_layer m y i /\ raised ch o sections gr wt b ta fp ys m y i e.
Proof using SS SO F SG.
  intros e I. apply in_flat_map in I. destruct I as ([sl i] & IW & I). apply work_is in IW. destruct IW as (y & IY & -> & L). exists y, i. split; [exact IY|]. split; [exact L|].
  unfold calls_of in I. cbn [s_ax s_lat s_layer slayer_of] in I. apply in_app_or in I. destruct I as [I|I].
  - destruct (y_ax y) as [ax|] eqn:AX; [|contradiction]. cbn [option_map f_tz f_qz axial_of] in I. apply in_app_or in I. destruct I as [I|I].
    + cbn [distributed_axial setting_of] in I. destruct (on_tz o) eqn:ON; [|contradiction]. left.
      assert (J : exists j, (j < 2)%nat /\ store_axial rnd (tz_curve (c_tz ch) ax (shaft_args (st sg) (y_layer y) i j)) = Err e).
      { destruct I as [I|[I|[]]]; [exists 0%nat|exists 1%nat]; (split; [lia|exact I]). }
      destruct J as (j & J & E). exists j. split; [exact J|]. left. split; [exact ON|].
      destruct (shaft_at y i j IY L) as (s & NB & AP & _). exists s, (shaft_args (st sg) (y_layer y) i j), ax. split; [exact NB|]. split; [exact AP|]. split; [exact AX|]. exact (axial_fails _ _ _ E).
    + destruct (tip_in (st sg) (y_layer y) && base_axial (st sg)) eqn:D; [|contradiction]. apply andb_prop in D. destruct D as [D1 D2]. cbn [base_axial setting_of] in D2. destruct I as [E|[]]. right. split; [apply tip_within; exact D1|]. left. split; [exact D2|].
      destruct (base_at y i IY L D1) as (s & NB & SI & AD & _). exists s, (base_args (st sg) (y_layer y) i), ax. split; [exact NB|]. split; [exact SI|]. split; [exact AD|]. split; [exact AX|]. exact (axial_fails _ _ _ E).
  - destruct (y_lat y) as [md|] eqn:LA; [|contradiction]. cbn [option_map f_py f_mt f_hb f_mb has_py has_mt has_hb has_mb lateral_of] in I.
    apply in_app_or in I. destruct I as [I|I]; [|apply in_app_or in I; destruct I as [I|I]; [|apply in_app_or in I; destruct I as [I|I]]].
    + destruct (nth 0 (spring_signature md) false && distributed_lateral (st sg)) eqn:D; [|contradiction]. apply andb_prop in D. destruct D as [D1 D2]. cbn [distributed_lateral setting_of] in D2. left.
      assert (J : exists j, (j < 2)%nat /\ at_place (shaft_args (st sg) (y_layer y) i j) (fun q => py_spring_fct md (c_py ch md (shaft_args (st sg) (y_layer y) i j)) q 0 15) (store_curve rnd) = Err e).
      { destruct I as [I|[I|[]]]; [exists 0%nat|exists 1%nat]; (split; [lia|exact I]). }
      destruct J as (j & J & E). exists j. split; [exact J|]. right; left. split; [exact D2|].
      destruct (shaft_at y i j IY L) as (s & NB & AP & AT). rewrite AT in E. exists s, (shaft_args (st sg) (y_layer y) i j), md. split; [exact NB|]. split; [exact AP|]. split; [exact LA|]. split; [exact D1|]. exact (curve_fails _ _ _ E).
    + destruct (nth 2 (spring_signature md) false && distributed_moment (st sg)) eqn:D; [|contradiction]. apply andb_prop in D. destruct D as [D1 D2]. cbn [distributed_moment setting_of] in D2. left.
      assert (J : exists j, (j < 2)%nat /\ at_place (shaft_args (st sg) (y_layer y) i j) (fun q => mt_spring_fct md (fst (c_mt ch md (shaft_args (st sg) (y_layer y) i j))) (snd (c_mt ch md (shaft_args (st sg) (y_layer y) i j))) q 0 15) (store_curves rnd) = Err e).
      { destruct I as [I|[I|[]]]; [exists 0%nat|exists 1%nat]; (split; [lia|exact I]). }
      destruct J as (j & J & E). exists j. split; [exact J|]. right; right. split; [exact D2|].
      destruct (shaft_at y i j IY L) as (s & NB & AP & AT). rewrite AT in E. exists s, (shaft_args (st sg) (y_layer y) i j), md. split; [exact NB|]. split; [exact AP|]. split; [exact LA|]. split; [exact D1|]. exact (curves_fails _ _ _ E).
    + destruct (tip_in (st sg) (y_layer y) && _) eqn:D in I; [|contradiction]. apply andb_prop in D. destruct D as [D1 D2]. apply andb_prop in D2. destruct D2 as [D2 D3]. cbn [base_shear setting_of] in D3. destruct I as [E|[]].
      right. split; [apply tip_within; exact D1|]. right; left. split; [exact D3|]. destruct (base_at y i IY L D1) as (s & NB & _ & _ & AT). rewrite AT in E. exists s, md. split; [exact NB|]. split; [exact LA|]. split; [exact D2|]. exact (curve_fails _ _ _ E).
    + destruct (tip_in (st sg) (y_layer y) && _) eqn:D in I; [|contradiction]. apply andb_prop in D. destruct D as [D1 D2]. apply andb_prop in D2. destruct D2 as [D2 D3]. cbn [base_moment setting_of] in D3. destruct I as [E|[]].
      right. split; [apply tip_within; exact D1|]. right; right. split; [exact D3|]. destruct (base_at y i IY L D1) as (s & NB & _ & _ & AT). rewrite AT in E. exists s, md. split; [exact NB|]. split; [exact LA|]. split; [exact D2|]. exact (curve_fails _ _ _ E).
Qed.

(** Without an error all calls have returned *)
Lemma all_returned : first_error (flat_map (calls_of (st sg)) W) = None -> forall y i, In y ys -> in_layer m y i -> all_return ch o sections gr wt b ta fp ys m y i.
Proof using SS SO F SG.
  intros FE y i IY L. pose proof (err_none _ FE) as ALL.
  assert (C : forall v, In v (calls_of (st sg) (slayer_of rnd ch ta fp y, i)) -> exists r, v = Ok r).
  { intros v I. apply ALL. apply in_flat_map. exists (slayer_of rnd ch ta fp y, i). split; [apply work_is; eauto|exact I]. }
  clear FE ALL. unfold calls_of in C. cbn [s_ax s_lat s_layer slayer_of] in C. split.
  - intros j J. split.
    + intros ON NE. destruct (y_ax y) as [ax|] eqn:AX; [|congruence]. cbn [option_map f_tz f_qz axial_of distributed_axial setting_of] in C. rewrite ON in C.
      assert (E : exists r, store_axial rnd (tz_curve (c_tz ch) ax (shaft_args (st sg) (y_layer y) i j)) = Ok r).
      { apply C. apply in_or_app; left. apply in_or_app; left. destruct j as [|[|j]]; [left; reflexivity|right; left; reflexivity|lia]. }
      destruct E as (r & E). destruct (shaft_at y i j IY L) as (s & NB & AP & _). exists s, (shaft_args (st sg) (y_layer y) i j), ax. split; [exact NB|]. split; [exact AP|]. split; [exact AX|]. exact (axial_returns _ _ _ E).
    + intros md LA. rewrite LA in C. cbn [option_map f_py f_mt f_hb f_mb has_py has_mt has_hb has_mb lateral_of] in C.
      destruct (shaft_at y i j IY L) as (s & NB & AP & AT). split; intros ON HA.
      * cbn [distributed_lateral setting_of] in C. rewrite ON, HA in C. cbn [andb] in C.
        assert (E : exists r, at_place (shaft_args (st sg) (y_layer y) i j) (fun q => py_spring_fct md (c_py ch md (shaft_args (st sg) (y_layer y) i j)) q 0 15) (store_curve rnd) = Ok r).
        { apply C. apply in_or_app; right. apply in_or_app; left. destruct j as [|[|j]]; [left; reflexivity|right; left; reflexivity|lia]. }
        destruct E as (r & E). rewrite AT in E. exists s, (shaft_args (st sg) (y_layer y) i j), md. split; [exact NB|]. split; [exact AP|]. split; [exact LA|]. split; [exact HA|]. exact (curve_returns _ _ _ E).
      * cbn [distributed_moment setting_of] in C. rewrite ON, HA in C. cbn [andb] in C.
        assert (E : exists r, at_place (shaft_args (st sg) (y_layer y) i j) (fun q => mt_spring_fct md (fst (c_mt ch md (shaft_args (st sg) (y_layer y) i j))) (snd (c_mt ch md (shaft_args (st sg) (y_layer y) i j))) q 0 15) (store_curves rnd) = Ok r).
        { apply C. apply in_or_app; right. apply in_or_app; right. apply in_or_app; left. destruct j as [|[|j]]; [left; reflexivity|right; left; reflexivity|lia]. }
        destruct E as (r & E). rewrite AT in E. exists s, (shaft_args (st sg) (y_layer y) i j), md. split; [exact NB|]. split; [exact AP|]. split; [exact LA|]. split; [exact HA|]. exact (curves_returns _ _ _ E).
  - intros WB. apply tip_within in WB. destruct (base_at y i IY L WB) as (s & NB & SI & AD & AT). rewrite WB in C. split.
    + intros ON NE. destruct (y_ax y) as [ax|] eqn:AX; [|congruence]. cbn [option_map f_tz f_qz axial_of base_axial setting_of andb] in C. rewrite ON in C.
      assert (E : exists r, store_axial rnd (qz_curve (c_qz ch) ta fp ax (base_args (st sg) (y_layer y) i)) = Ok r).
      { apply C. apply in_or_app; left. apply in_or_app; right. left; reflexivity. }
      destruct E as (r & E). exists s, (base_args (st sg) (y_layer y) i), ax. split; [exact NB|]. split; [exact SI|]. split; [exact AD|]. split; [exact AX|]. exact (axial_returns _ _ _ E).
    + intros md LA. rewrite LA in C. cbn [option_map f_py f_mt f_hb f_mb has_py has_mt has_hb has_mb lateral_of andb] in C. split; intros ON HA.
      * cbn [base_shear setting_of] in C. rewrite ON, HA in C. cbn [andb] in C.
        assert (E : exists r, at_place (base_args (st sg) (y_layer y) i) (fun q => Hb_spring_fct md q 0 15) (store_curve rnd) = Ok r).
        { apply C. apply in_or_app; right. apply in_or_app; right. apply in_or_app; right. apply in_or_app; left. left; reflexivity. }
        destruct E as (r & E). rewrite AT in E. exists s, md. split; [exact NB|]. split; [exact LA|]. split; [exact HA|]. exact (curve_returns _ _ _ E).
      * cbn [base_moment setting_of] in C. rewrite ON, HA in C. cbn [andb] in C.
        assert (E : exists r, at_place (base_args (st sg) (y_layer y) i) (fun q => Mb_spring_fct md q 0 15) (store_curve rnd) = Ok r).
        { apply C. apply in_or_app; right. apply in_or_app; right. apply in_or_app; right. apply in_or_app; right. left; reflexivity. }
        destruct E as (r & E). rewrite AT in E. exists s, md. split; [exact NB|]. split; [exact LA|]. split; [exact HA|]. exact (curve_returns _ _ _ E).
Qed.
End Called.
End Reach.
