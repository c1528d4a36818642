(** Property C145: what Model(...) raises. *)
From Coq Require Import List Bool Arith ZArith QArith Qabs Reals Qreals Permutation Lia Lqa Lra.
From Verif Require Import Base PileModel PileSpec PileProofs MeshModel MeshSpec StressModel StressSpec StressProps BeamModel SolveModel CreateModel CreateProofs CreateProps WholeModel WholeSpec CallProofs AxialModel AxialProofs AxialProps
  LateralModel LateralSpec LateralProofs FieldModel CapacityModel CapacitySpec CapacityProofs CapacityProps FullModel FullSpec FullProofs SiteProofs FullProps ObjectModel ObjectProofs ObjectProps RaiseSpec RaiseProofs.
Import ListNotations.
Local Open Scope Q_scope.

(** ** C145 *)
(** Pile, soil profile and mesh of a sound site raise nothing ([map without ys] is the site without its soil models): what Model(...)
    raises was raised by a spring function, for an element in its layer, with the arguments of that place, or by arrays that
    do not have 15 numbers.  A model is made only if all calls have returned. *)
Theorem C145_raised : forall rnd ch sort o sections gr wt ys x c p t b m, (forall rows, ascending_of (sort rows) rows) ->
  sound_site o sections gr wt (map without ys) x c p t b m ->
  exists s, last_section p = Ok s /\ match construct rnd ch sort o sections gr wt ys x c with
  | Err er => exists y i, In y ys /\ in_layer m y i /\ raised ch o sections gr wt b (s_area s) (s_footprint s) ys m y i er
  | Ok (Some B) => b_pile B = p /\ b_mesh B = m /\ forall y i, In y ys -> in_layer m y i -> all_return ch o sections gr wt b (s_area s) (s_footprint s) ys m y i
  | Ok None => False
  end.
Proof.
  intros rnd ch sort o sections gr wt ys x c p t b m SO SS. destruct (construct_is rnd ch sort o sections gr wt ys x c p t b m SO SS) as (s & sg & LS & SG & (sd & F) & ->).
  exists s. split; [exact LS|]. destruct (first_error _) as [er|] eqn:FE.
  - exact (raised_by rnd ch sort o sections gr wt ys x c p t b m SO SS _ _ sd sg F SG er (first_is _ _ FE)).
  - split; [reflexivity|]. split; [reflexivity|]. exact (all_returned rnd ch sort o sections gr wt ys x c p t b m SO SS _ _ sd sg F SG FE).
Qed.
Print Assumptions C145_raised.

(** ** Axial springs *)
Definition callable_factor (ax : axial_soil) : Prop := exists f, match ax with Clay k => ca_tm k = MFun f \/ ca_zm k = MFun f | Sand k => sa_tm k = MFun f \/ sa_zm k = MFun f end.

Lemma tz_ends : forall d ax a sig D co ci, fair d -> a_sig a = Some sig -> a_D a = Some D -> a_perim a = Some co -> a_perim_in a = Some ci -> 0 < co -> 0 < ci -> 0 < a_height a ->
  (callable_factor ax /\ tz_curve d ax a = Err TypeError) \/ (~ callable_factor ax /\ exists z t, tz_curve d ax a = Ok (Some (z, t)) /\ length z = 15%nat /\ length t = 15%nat).
Proof.
  intros d ax a sig D co ci FD ES ED EC EI C0 I0 H0. unfold tz_curve. rewrite ES, ED, EC, EI. destruct (FD ax a) as [FU FA]. destruct (d ax a) as [u idx]. cbn [fst snd] in FU, FA.
  apply Q2R_pos in C0, I0, H0. assert (HN : Q2R (a_height a) <> 0%R) by lra. destruct ax as [k|k].
  - unfold clay_tz. rewrite at_depth_ok by auto. cbn [bind]. destruct (plug_ok (ca_plug k) (ca_tension k) (Q2R ci) (Q2R co) C0 I0) as (total & tens & ->). cbn [bind]. unfold tz_api_clay.
    destruct (clay_centred u idx (ca_residual k) tens FU FA) as [(L1 & L2 & _) _].
    destruct (ca_zm k) as [zm|f] eqn:EZ; cbn [times bind some_values]; [|left; split; [exists f; auto|reflexivity]].
    destruct (ca_tm k) as [tm|f] eqn:ET; cbn [times bind some_values]; [|left; split; [exists f; auto|reflexivity]].
    right. split; [intros (f & [H|H]); congruence|]. eexists _, _. split; [reflexivity|]. rewrite !scale_length. split; assumption.
  - unfold sand_tz. rewrite at_depth_ok by auto. cbn [bind]. destruct (plug_ok (sa_plug k) (sa_tension k) (Q2R ci) (Q2R co) C0 I0) as (total & tens & ->). cbn [bind]. unfold tz_api_sand.
    destruct (sand_centred u idx tens FU FA) as [(L1 & L2 & _) _].
    destruct (sa_zm k) as [zm|f] eqn:EZ; cbn [times bind some_values]; [|left; split; [exists f; auto|reflexivity]].
    destruct (sa_tm k) as [tm|f] eqn:ET; cbn [times bind some_values]; [|left; split; [exists f; auto|reflexivity]].
    right. split; [intros (f & [H|H]); congruence|]. eexists _, _. split; [reflexivity|]. rewrite !scale_length. split; assumption.
Qed.
Lemma qz_ends : forall d ta fp ax a sig D, fair_tip d -> a_sig a = Some sig -> a_D a = Some D -> 0 < a_height a -> exists z t, qz_curve d ta fp ax a = Ok (Some (z, t)) /\ length z = 15%nat /\ length t = 15%nat.
Proof.
  intros d ta fp ax a sig D FD ES ED H0. unfold qz_curve. rewrite ES, ED. destruct (FD ax a) as [FU FA]. destruct (d ax a) as [u idx]. cbn [fst snd] in FU, FA.
  apply Q2R_pos in H0. assert (HN : Q2R (a_height a) <> 0%R) by lra. destruct (tip_centred u idx FU FA) as [(L1 & L2 & _) _]. destruct ax as [k|k].
  - unfold clay_Qz. rewrite at_depth_ok by auto. cbn [bind]. unfold qz_api_clay. cbn [some_values]. eexists _, _. split; [reflexivity|]. rewrite !scale_length. split; assumption.
  - unfold sand_Qz. rewrite at_depth_ok by auto. cbn [bind]. unfold qz_api_sand. cbn [some_values]. eexists _, _. split; [reflexivity|]. rewrite !scale_length. split; assumption.
Qed.

(** ** The kind of the error *)
(** A custom PISA layer with an object that can be called as shear modulus, strength or p-y parameter (C140) *)
Definition object_model (md : lateral_model) : Prop := (exists G0 py mt Hb Mb mu, md = held_sand G0 py mt Hb Mb mu /\ (is_object G0 \/ in_four py)) \/
  (exists Su G0 py mt Hb Mb mu, md = held_clay Su G0 py mt Hb Mb mu /\ (is_object Su \/ is_object G0 \/ in_four py)).
(** The site without axial models, and without the lateral models of the layers in [bad] *)
Definition tamed (bad : soil_layer -> bool) (y : soil_layer) : soil_layer := mkSL (y_layer y) (if bad y then None else y_lat y) None.

Lemma first_app : forall l l', first_error (l ++ l') = match first_error l with Some e => Some e | None => first_error l' end.
Proof. induction l as [|[r|e] l IH]; intros l'; cbn [app first_error]; auto. Qed.
Definition only_type (l : list stored_value) : Prop := first_error l = None \/ first_error l = Some TypeError.
Lemma type_app : forall l l', only_type l -> only_type l' -> only_type (l ++ l').
Proof. intros l l' [A|A] B; unfold only_type; rewrite first_app, A; auto. Qed.
Lemma type_flat : forall A (f : A -> list stored_value) l, (forall a, In a l -> only_type (f a)) -> only_type (flat_map f l).
Proof. intros A f. induction l as [|a l IH]; intros H; [left; reflexivity|]. cbn [flat_map]. apply type_app; [apply H; left; reflexivity|apply IH; intros; apply H; right; auto]. Qed.
Lemma type_all : forall l, (forall v, In v l -> v = Err TypeError \/ exists r, v = Ok r) -> only_type l.
Proof.
  induction l as [|v l IH]; intros H; [left; reflexivity|]. destruct (H v (or_introl eq_refl)) as [->|(r & ->)]; [right; reflexivity|]. apply IH. intros; apply H; right; auto.
Qed.
Lemma type_ok : forall l, (forall v, In v l -> exists r, v = Ok r) -> only_type l.
Proof. intros l H. apply type_all. auto. Qed.

Lemma tamed_without : forall bad ys, map without (map (tamed bad) ys) = map without ys.
Proof. intros. rewrite map_map. reflexivity. Qed.
Lemma tamed_layers : forall bad ys, map y_layer (map (tamed bad) ys) = map y_layer ys.
Proof. intros. rewrite map_map. reflexivity. Qed.
Lemma tamed_site : forall bad o sections gr wt ys x c p t b m, sound_site o sections gr wt (map (tamed bad) ys) x c p t b m -> sound_site o sections gr wt (map without ys) x c p t b m.
Proof.
  intros bad o sections gr wt ys x c p t b m [A1 A2 A3 A4 A5 A6 A7 A8]. rewrite tamed_layers in *. constructor; rewrite ?without_layers; auto.
  - intros y I. apply in_map_iff in I. destruct I as (y0 & <- & I). exact (A5 (tamed bad y0) (in_map _ _ _ I)).
  - constructor; intros y; intros; exfalso; match goal with H : In y _ |- _ => apply in_map_iff in H; destruct H as (y0 & <- & H) end; discriminate.
Qed.

(** In a site that is sound but for such parameters Model(...) raises TypeError, whatever else there is in the layers. *)
Theorem C145_type_error_refuted : forall rnd ch sort o sections gr wt ys x c p t b m bad, storage rnd -> fair_chance ch -> (forall rows, ascending_of (sort rows) rows) ->
  sound_site o sections gr wt (map (tamed bad) ys) x c p t b m ->
  (forall y, In y ys -> bad y = true -> on_py o = true /\ exists md, y_lat y = Some md /\ object_model md) ->
  (exists y i, In y ys /\ in_layer m y i /\ (bad y = true \/ (on_tz o = true /\ exists ax, y_ax y = Some ax /\ callable_factor ax))) ->
  construct rnd ch sort o sections gr wt ys x c = Err TypeError.
Proof.
  intros rnd ch sort o sections gr wt ys x c p t b m bad ST FC SO SS BAD (y1 & i1 & IY1 & IL1 & WHY).
  pose proof (tamed_site _ _ _ _ _ _ _ _ _ _ _ _ SS) as SW.
  destruct (construct_is rnd ch sort o sections gr wt ys x c p t b m SO SW) as (s & sg & LS & SG & (sd & F) & CO). rewrite CO.
  set (st := setting_of o p b (sort (data_rows p)) gr wt (map y_layer ys) m sg) in *. set (ta := s_area s) in *. set (fp := s_footprint s) in *.
  destruct (site_fits rnd ch sort o sections gr wt (map (tamed bad) ys) x c p t b m SS ta fp) as (sd' & sg' & F' & SG'). rewrite tamed_layers in F', SG'. assert (sg' = sg) as -> by congruence. fold st in F'.
  pose proof (calls_good rnd ch sort o sections gr wt (map (tamed bad) ys) x c p t b m ST FC SO SS ta fp sd' sg) as GOOD. rewrite tamed_layers in GOOD. fold st in GOOD. specialize (GOOD F' SG').
  destruct FC as (_ & _ & FT & FQ).
  (* the axial calls *)
  assert (AX : forall y i ax j, In y ys -> in_layer m y i -> y_ax y = Some ax -> let r := store_axial rnd (tz_curve (c_tz ch) ax (shaft_args st (y_layer y) i j)) in
    (callable_factor ax -> r = Err TypeError) /\ (r = Err TypeError \/ exists v, r = Ok v)).
  { intros y i ax j IY IL EA r. pose proof (called_shaft rnd ch sort o sections gr wt (map without ys) x c p t b m SO SW ta fp sd sg) as CS. rewrite without_layers in CS. fold st in CS.
    destruct (CS F SG (without y) i j (in_map _ _ _ IY) (work_without rnd ch sort o gr wt ys p b m ta fp sg y i IY IL)) as (s0 & _ & _ & C0). cbv zeta in C0. cbn [y_layer without] in C0.
    destruct C0 as (_ & _ & ((sig & S1 & _) & _ & _ & _ & ED & EC & EI) & _ & PW & PO & PH & _).
    destruct (tz_ends (c_tz ch) ax _ sig _ _ _ FT S1 ED EC EI PO PO PH) as [[CF E]|[NC (z & t' & E & L1 & L2)]]; unfold r; rewrite E; cbn [store_axial bind].
    - split; [reflexivity|left; reflexivity].
    - split; [intros CF; contradiction|]. right. rewrite L1, L2. cbn [Nat.eqb andb]. eauto. }
  assert (QX : forall y i ax, In y ys -> in_layer m y i -> tip_in st (y_layer y) = true -> exists v, store_axial rnd (qz_curve (c_qz ch) ta fp ax (base_args st (y_layer y) i)) = Ok v).
  { intros y i ax IY IL TI. pose proof (called_base rnd ch sort o sections gr wt (map without ys) x c p t b m SO SW ta fp sd sg) as CS. rewrite without_layers in CS. fold st in CS.
    destruct (CS F SG (without y) i (in_map _ _ _ IY) (work_without rnd ch sort o gr wt ys p b m ta fp sg y i IY IL) TI) as (s0 & _ & _ & _ & C0). cbv zeta in C0. cbn [y_layer without] in C0.
    destruct C0 as ((sig & S1 & _) & ED & _ & PH & _). destruct (qz_ends (c_qz ch) ta fp ax _ sig _ FQ S1 ED PH) as (z & t' & E & L1 & L2). rewrite E. cbn [store_axial bind]. rewrite L1, L2. cbn [Nat.eqb andb]. eauto. }
  (* the p-y call of a bad layer *)
  assert (PY : forall y i, In y ys -> in_layer m y i -> bad y = true -> exists md, y_lat y = Some md /\ nth 0 (spring_signature md) false = true /\ on_py o = true /\ forall j, f_py (lateral_of rnd ch md) (shaft_args st (y_layer y) i j) = Err TypeError).
  { intros y i IY IL B. destruct (BAD y IY B) as (ON & md & EM & OM). exists md. split; [exact EM|]. split; [destruct OM as [(G0 & py & mt & Hb & Mb & mu & -> & _)|(Su & G0 & py & mt & Hb & Mb & mu & -> & _)]; reflexivity|]. split; [exact ON|]. intros j.
    pose proof (called_shaft rnd ch sort o sections gr wt (map without ys) x c p t b m SO SW ta fp sd sg) as CS. rewrite without_layers in CS. fold st in CS.
    destruct (CS F SG (without y) i j (in_map _ _ _ IY) (work_without rnd ch sort o gr wt ys p b m ta fp sg y i IY IL)) as (s0 & _ & _ & C0). cbv zeta in C0. cbn [y_layer without] in C0.
    destruct C0 as (_ & _ & _ & _ & _ & _ & _ & [G2 G3 G4 G5 G6] & AT). cbn [f_py lateral_of]. rewrite AT.
    destruct OM as [(G0 & py & mt & Hb & Mb & mu & -> & J)|(Su & G0 & py & mt & Hb & Mb & mu & -> & J)].
    - rewrite (proj1 (C140_sand_refuted G0 py mt Hb Mb mu _ [] _ 0%R 15%nat G2 (proj2 G3) J)). reflexivity.
    - rewrite (proj1 (C140_clay_refuted Su G0 py mt Hb Mb mu _ [] _ 0%R 15%nat G2 (proj2 G3) J)). reflexivity. }
  assert (ALL : only_type (flat_map (calls_of st) (work st (map (slayer_of rnd ch ta fp) ys)))).
  { apply type_flat. intros [sl i] IW. apply (work_is rnd ch sort o gr wt ys p b m ta fp sg) in IW. destruct IW as (y & IY & -> & IL). unfold calls_of. cbn [s_ax s_lat s_layer slayer_of]. apply type_app.
    - destruct (y_ax y) as [ax|] eqn:EA; [|left; reflexivity]. cbn [option_map f_tz f_qz axial_of]. apply type_all. intros v I. apply in_app_or in I. destruct I as [I|I].
      + destruct (distributed_axial st); [|contradiction]. destruct I as [<-|[<-|[]]]; [apply (AX y i ax 0%nat IY IL EA)|apply (AX y i ax 1%nat IY IL EA)].
      + destruct (tip_in st (y_layer y) && base_axial st) eqn:D; [|contradiction]. apply andb_prop in D. destruct I as [<-|[]]. right. exact (QX y i ax IY IL (proj1 D)).
    - destruct (bad y) eqn:B.
      + destruct (PY y i IY IL B) as (md & EM & SG0 & ON & PE). rewrite EM. cbn [option_map has_py lateral_of]. rewrite SG0. cbn [distributed_lateral st setting_of]. rewrite ON. cbn [andb app]. right.
        match goal with |- first_error (?a :: _) = _ => change a with (f_py (lateral_of rnd ch md) (shaft_args st (y_layer y) i 0)) end. rewrite PE. reflexivity.
      + apply type_ok. intros v I. apply GOOD. apply in_flat_map. exists (slayer_of rnd ch ta fp (tamed bad y), i). split.
        * apply in_work. split; [apply in_map, in_map; exact IY|]. exact IL.
        * unfold calls_of. cbn [s_ax s_lat s_layer slayer_of tamed y_layer y_lat y_ax option_map app]. rewrite B. exact I. }
  destruct ALL as [E|E]; [|rewrite E; reflexivity]. exfalso.
  assert (C : forall v, In v (calls_of st (slayer_of rnd ch ta fp y1, i1)) -> exists r, v = Ok r).
  { intros v I. apply (err_none _ E). apply in_flat_map. exists (slayer_of rnd ch ta fp y1, i1). split; [apply (work_is rnd ch sort o gr wt ys p b m ta fp sg); eauto|exact I]. }
  unfold calls_of in C. cbn [s_ax s_lat s_layer slayer_of] in C. destruct WHY as [B|(ON & ax & EA & CF)].
  - destruct (PY y1 i1 IY1 IL1 B) as (md & EM & SG0 & ON & PE). rewrite EM in C. cbn [option_map] in C. destruct (C (f_py (lateral_of rnd ch md) (shaft_args st (y_layer y1) i1 0))) as (r & R); [|rewrite PE in R; discriminate].
    apply in_or_app; right. apply in_or_app; left. cbn [has_py lateral_of]. rewrite SG0. cbn [distributed_lateral st setting_of]. rewrite ON. cbn [andb]. left. reflexivity.
  - rewrite EA in C. cbn [option_map f_tz f_qz axial_of distributed_axial st setting_of] in C. rewrite ON in C. destruct (C (store_axial rnd (tz_curve (c_tz ch) ax (shaft_args st (y_layer y1) i1 0)))) as (r & R).
    + apply in_or_app; left. apply in_or_app; left. left. reflexivity.
    + rewrite (proj1 (AX y1 i1 ax 0%nat IY1 IL1 EA) CF) in R. discriminate.
Qed.
Print Assumptions C145_type_error_refuted.

(** The site of C140, and that of C107 with a function as factor of the friction in its lower layer *)
Definition clay_function : clay_axial := mkClayAxial (ca_Su_top clay_w) (ca_Su_bottom clay_w) (ca_plug clay_w) (ca_alpha_limit clay_w) (MFun (fun X => (1 + X)%R)) (ca_zm clay_w)
  (ca_Qm clay_w) (ca_wm clay_w) (ca_residual clay_w) (ca_tension clay_w).
Definition soil_function : list soil_layer := [mkSL (mkLayer (-4) (-20) 19) (Some lower0) (Some (Clay clay_function)); mkSL (mkLayer 0 (-4) 18) (Some upper0) None].
Definition lower_bad (y : soil_layer) : bool := Qeq_bool (l_top (y_layer y)) (-4).

Example C145_example : construct rnd0 ch0 sort0 all_on ex_l 0 (-1) soil_object [-1] 2 = Err TypeError /\ construct rnd0 ch0 sort0 all_on ex_l 0 (-1) soil_function [-1] 2 = Err TypeError.
Proof.
  destruct C107_example as (ST & FC & SO & SS & _).
  assert (I5 : in_layer mesh1 (mkSL (mkLayer (-4) (-20) 19) None None) 5) by (unfold in_layer; split; [vm_compute; lia|vm_compute; split; discriminate]).
  pose proof (site_exists all_on) as [A1 A2 A3 A4 A5 A6 A7 A8]. split.
  - apply (C145_type_error_refuted rnd0 ch0 sort0 all_on ex_l 0 (-1) soil_object [-1] 2 ex_p 2 (-8) mesh1 lower_bad ST FC SO).
    + constructor; auto.
      * intros y [<-|[<-|[]]]; reflexivity.
      * destruct A8 as [B1 B2 B3 B4 B5]. constructor.
        -- intros y md s z ON [<-|[<-|[]]] E; [discriminate|]. apply (B1 (mkSL (mkLayer 0 (-4) 18) (Some upper0) None) md s z ON (or_intror (or_introl eq_refl)) E).
        -- intros y md s z ON HM [<-|[<-|[]]] E; [discriminate|]. apply (B2 (mkSL (mkLayer 0 (-4) 18) (Some upper0) None) md s z ON HM (or_intror (or_introl eq_refl)) E).
        -- intros y md s HB [<-|[<-|[]]] E; [discriminate|]. apply (B3 (mkSL (mkLayer 0 (-4) 18) (Some upper0) None) md s HB (or_intror (or_introl eq_refl)) E).
        -- intros y s [<-|[<-|[]]]; discriminate.
        -- intros y s _ [<-|[<-|[]]]; discriminate.
    + intros y [<-|[<-|[]]] B; [|discriminate B]. split; [reflexivity|]. eexists. split; [reflexivity|]. right. do 7 eexists. split; [reflexivity|]. right; left. eexists; reflexivity.
    + eexists _, 5%nat. split; [left; reflexivity|]. split; [exact I5|]. left. reflexivity.
  - apply (C145_type_error_refuted rnd0 ch0 sort0 all_on ex_l 0 (-1) soil_function [-1] 2 ex_p 2 (-8) mesh1 (fun _ => false) ST FC SO).
    + constructor; auto.
      * intros y [<-|[<-|[]]]; reflexivity.
      * destruct A8 as [B1 B2 B3 B4 B5]. constructor.
        -- intros y md s z ON [<-|[<-|[]]] E; [apply (B1 (mkSL (mkLayer (-4) (-20) 19) (Some lower0) (Some (Clay clay_w))) md s z ON (or_introl eq_refl) E)|apply (B1 (mkSL (mkLayer 0 (-4) 18) (Some upper0) None) md s z ON (or_intror (or_introl eq_refl)) E)].
        -- intros y md s z ON HM [<-|[<-|[]]] E; [apply (B2 (mkSL (mkLayer (-4) (-20) 19) (Some lower0) (Some (Clay clay_w))) md s z ON HM (or_introl eq_refl) E)|apply (B2 (mkSL (mkLayer 0 (-4) 18) (Some upper0) None) md s z ON HM (or_intror (or_introl eq_refl)) E)].
        -- intros y md s HB [<-|[<-|[]]] E; [apply (B3 (mkSL (mkLayer (-4) (-20) 19) (Some lower0) (Some (Clay clay_w))) md s HB (or_introl eq_refl) E)|apply (B3 (mkSL (mkLayer 0 (-4) 18) (Some upper0) None) md s HB (or_intror (or_introl eq_refl)) E)].
        -- intros y s [<-|[<-|[]]]; discriminate.
        -- intros y s _ [<-|[<-|[]]]; discriminate.
    + intros y _ B. discriminate B.
    + eexists _, 5%nat. split; [left; reflexivity|]. split; [exact I5|]. right. split; [reflexivity|]. eexists. split; [reflexivity|]. eexists. left. reflexivity.
Qed.
