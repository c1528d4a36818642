(** Property C140: parameters given as callables. *)
From Coq Require Import List Bool Arith ZArith QArith Qabs Reals Qreals Permutation Lia Lqa Lra.
From Verif Require Import Base PileModel PileSpec PileProofs MeshModel MeshSpec StressModel StressSpec StressProps BeamModel CreateModel CreateProofs CreateProps CapacityProps CallProofs AxialModel LateralModel LateralSpec LateralProofs FieldModel CapacityModel FullModel FullSpec SiteProofs FullProps
  ObjectModel ObjectProofs.
Import ListNotations.
Local Open Scope Q_scope.

(** A plain function gives its value at the depth of the spring; as a multiplier, so does every callable. *)
Theorem C140_functions : forall f d h X, current_value (VFunction f) d h X = Ok (f X) /\
  multiplier_value (VFunction f) X = Ok (f X) /\ multiplier_value (VObject f) X = Ok (f X).
Proof. repeat split; reflexivity. Qed.
Print Assumptions C140_functions.

(** Any other callable is accepted as a parameter and raises TypeError when its value is asked for. *)
Theorem C140_objects_refuted : forall f number element d h X,
  value_accepted number element (VObject f) = true /\ current_value (VObject f) d h X = Err TypeError.
Proof. split; reflexivity. Qed.
Print Assumptions C140_objects_refuted.

(** A custom PISA sand with such a shear modulus or p-y parameter has no p-y and no m-t curve anywhere in its layer;
    the fields of the model are those of a model with plain functions in their place. *)
Theorem C140_sand_refuted : forall G0 py mt Hb Mb mu u idx q ymax n, (0 < q_height q)%R -> (q_depth q <= q_height q)%R -> is_object G0 \/ in_four py ->
  py_spring_fct (held_sand G0 py mt Hb Mb mu) u q ymax n = Err TypeError /\ mt_spring_fct (held_sand G0 py mt Hb Mb mu) u idx q ymax n = Err TypeError.
Proof.
  intros G0 py mt Hb Mb mu u idx q ymax n H D J. unfold py_spring_fct, mt_spring_fct, held_sand, inside_layer.
  destruct (Rlt_dec (q_height q) (q_depth q)); [exfalso; Lra.lra|]. cbn [py_curve mt_curve].
  destruct (custom_or (held G0) q H) as [(v & E)|E]; rewrite E; cbn [bind]; [|split; reflexivity].
  destruct J as [J|J]; [pose proof (object_raises _ q J); congruence|]. rewrite !(four_raises py q _ H J). split; reflexivity.
Qed.
Print Assumptions C140_sand_refuted.

Theorem C140_clay_refuted : forall Su G0 py mt Hb Mb mu u idx q ymax n, (0 < q_height q)%R -> (q_depth q <= q_height q)%R -> is_object Su \/ is_object G0 \/ in_four py ->
  py_spring_fct (held_clay Su G0 py mt Hb Mb mu) u q ymax n = Err TypeError /\ mt_spring_fct (held_clay Su G0 py mt Hb Mb mu) u idx q ymax n = Err TypeError.
Proof.
  intros Su G0 py mt Hb Mb mu u idx q ymax n H D J. unfold py_spring_fct, mt_spring_fct, held_clay, inside_layer.
  destruct (Rlt_dec (q_height q) (q_depth q)); [exfalso; Lra.lra|]. cbn [py_curve mt_curve].
  destruct (custom_or (held Su) q H) as [(v & E)|E]; rewrite E; cbn [bind]; [|split; reflexivity].
  destruct (custom_or (held G0) q H) as [(w & E')|E']; rewrite E'; cbn [bind]; [|split; reflexivity].
  destruct J as [J|[J|J]]; [pose proof (object_raises _ q J); congruence|pose proof (object_raises _ q J); congruence|]. rewrite !(four_raises py q _ H J). split; reflexivity.
Qed.
Print Assumptions C140_clay_refuted.

(** An exception of a p-y or m-t function at one end of one element is an exception of Model(...): no model
    with springs left out is made.  [map without ys] is the site without its soil models. *)
Theorem C140_error_reaches_user : forall rnd ch sort o sections gr wt ys x c p t b m y md i j, (forall rows, ascending_of (sort rows) rows) ->
  sound_site o sections gr wt (map without ys) x c p t b m ->
  In y ys -> y_lat y = Some md -> (i < length (elements_of m))%nat -> (j < 2)%nat ->
  let e := nth i (elements_of m) (0, 0) in l_bottom (y_layer y) <= snd e -> fst e <= l_top (y_layer y) ->
  let z := if Nat.eqb j 0 then fst e else snd e in
  (forall s, In s sections -> let q := spot (map y_layer ys) gr wt b (y_layer y) z (gr - z) (s_width s) in
     (0 < q_height q)%R -> (q_depth q <= q_height q)%R ->
     (on_py o = true /\ nth 0 (spring_signature md) false = true /\ forall u, exists er, py_spring_fct md u q 0 15 = Err er) \/
     (on_mt o = true /\ nth 2 (spring_signature md) false = true /\ forall u idx, exists er, mt_spring_fct md u idx q 0 15 = Err er)) ->
  exists er, construct rnd ch sort o sections gr wt ys x c = Err er.
Proof.
  intros rnd ch sort o sections gr wt ys x c p t b m y md i j SO SS IY YL LI LJ e LB LT z BAD.
  destruct (construct rnd ch sort o sections gr wt ys x c) as [[B|]|er] eqn:C; [| |eauto]; exfalso.
  - destruct (calls_returned rnd ch sort o sections gr wt ys x c p t b m SO SS B C y md i IY YL LI LB LT) as (sg & s & IS & H).
    specialize (H j LJ). cbv zeta in H. fold e z in H. destruct H as (H1 & H2 & H3 & H4).
    destruct (BAD s IS H1 H2) as [(A1 & A2 & A3)|(A1 & A2 & A3)].
    + destruct (H3 A1 A2) as (r & E). destruct (A3 (c_py ch md (shaft_args (setting_of o p b (sort (data_rows p)) gr wt (map y_layer ys) m sg) (y_layer y) i j))) as (er & E'). congruence.
    + destruct (H4 A1 A2) as (r & E). destruct (A3 (fst (c_mt ch md (shaft_args (setting_of o p b (sort (data_rows p)) gr wt (map y_layer ys) m sg) (y_layer y) i j)))
        (snd (c_mt ch md (shaft_args (setting_of o p b (sort (data_rows p)) gr wt (map y_layer ys) m sg) (y_layer y) i j)))) as (er & E'). congruence.
  - unfold construct in C. destruct SS as [[S1 S2 S3 S4 S5 S6 S7 S8 S9] _ _ _ _ _ _ _]. rewrite without_layers in S6. rewrite S2 in C. cbn [bind] in C.
    destruct (make_profile gr (map y_layer ys)) as [ls0|] eqn:EL; [|discriminate]. apply profile_ok in EL. destruct EL as [-> _]. cbn [bind] in C.
    destruct (pile_length p); [|discriminate]. cbn [bind] in C. rewrite S4 in C. cbn [bind] in C. destruct (accept_model _ _ _ _); [|discriminate]. cbn [bind] in C. rewrite S6 in C.
    destruct (stress _ _ _ _); [|discriminate]. cbn [bind] in C. destruct (tip_area p); [|discriminate]. cbn [bind] in C. destruct (tip_footprint p); [|discriminate]. cbn [bind] in C. cbv zeta in C.
    destruct (make_springs _ _); discriminate.
Qed.
Print Assumptions C140_error_reaches_user.

(** So no model is made of a site with an element in a layer of such a sand. *)
Theorem C140_site_refuted : forall rnd ch sort o sections gr wt ys x c p t b m y md i, (forall rows, ascending_of (sort rows) rows) ->
  sound_site o sections gr wt (map without ys) x c p t b m -> on_py o = true ->
  (exists G0 py mt Hb Mb mu, md = held_sand G0 py mt Hb Mb mu /\ (is_object G0 \/ in_four py)) \/
  (exists Su G0 py mt Hb Mb mu, md = held_clay Su G0 py mt Hb Mb mu /\ (is_object Su \/ is_object G0 \/ in_four py)) ->
  In y ys -> y_lat y = Some md -> (i < length (elements_of m))%nat ->
  let e := nth i (elements_of m) (0, 0) in l_bottom (y_layer y) <= snd e -> fst e <= l_top (y_layer y) ->
  exists er, construct rnd ch sort o sections gr wt ys x c = Err er.
Proof.
  intros rnd ch sort o sections gr wt ys x c p t b m y md i SO SS OP MD IY YL LI e LB LT.
  apply (C140_error_reaches_user rnd ch sort o sections gr wt ys x c p t b m y md i 0%nat SO SS IY YL LI ltac:(lia) LB LT).
  cbv zeta. intros s IS H1 H2. left. split; [exact OP|]. destruct MD as [(G0 & py & mt & Hb & Mb & mu & -> & J)|(Su & G0 & py & mt & Hb & Mb & mu & -> & J)].
  - split; [reflexivity|]. intros u. exists TypeError. apply (C140_sand_refuted G0 py mt Hb Mb mu u []); auto.
  - split; [reflexivity|]. intros u. exists TypeError. apply (C140_clay_refuted Su G0 py mt Hb Mb mu u []); auto.
Qed.
Print Assumptions C140_site_refuted.

(** The site of C107 with the shear modulus of the lower layer given by an object that computes the same values: accepted,
    and no model is made of it. *)
Definition vfour0 : vfour := mkVFour (VFloat 100) (VFunction (fun X => 0.4%R)) (VFloat 8) (VList [6; 7]%R).
Definition modulus0 : pyvalue := VObject (fun X => (10000 + X)%R).
Definition soil_object : list soil_layer := [mkSL (mkLayer (-4) (-20) 19) (Some (held_clay (VFloat 100) modulus0 vfour0 vfour0 vfour0 vfour0 one_all)) (Some (Clay clay_w)); mkSL (mkLayer 0 (-4) 18) (Some upper0) None].

Example C140_example : make_lateral (seen_clay (VFloat 100) modulus0 vfour0 vfour0 vfour0 vfour0 one_all) = Ok lower0 /\
  sound_site all_on ex_l 0 (-1) (map without soil_object) [-1] 2 ex_p 2 (-8) mesh1 /\
  exists er, construct rnd0 ch0 sort0 all_on ex_l 0 (-1) soil_object [-1] 2 = Err er.
Proof.
  assert (SS : sound_site all_on ex_l 0 (-1) (map without soil_object) [-1] 2 ex_p 2 (-8) mesh1).
  { destruct (site_exists all_on) as [A1 A2 A3 A4 A5 A6 A7 A8]. constructor; auto.
    - intros y [<-|[<-|[]]]; reflexivity.
    - constructor; intros y; intros; exfalso;
        match goal with H : In y _ |- _ => destruct H as [<-|[<-|[]]] end; discriminate. }
  split; [|split; [exact SS|]].
  - unfold make_lateral. change (seen_clay (VFloat 100) modulus0 vfour0 vfour0 vfour0 vfour0 one_all) with lower0.
    assert (E : lateral_fields lower0 = true); [|rewrite E; reflexivity].
    assert (L : forall a b, (a < b)%R -> FieldModel.ltb a b = true) by (intros a b H; unfold FieldModel.ltb; destruct (Rlt_dec a b); [reflexivity|contradiction]).
    assert (L' : forall a b, (a <= b)%R -> FieldModel.leb a b = true) by (intros a b H; unfold FieldModel.leb; destruct (Rle_dec a b); [reflexivity|contradiction]).
    unfold lower0, lateral_fields, four_fields, four0, positive_or_function, curvature_field, mults_ok, resistance_multiplier, displacement_multiplier, one_all, field, ok.
    cbn [f_X f_n f_k f_Y mu_p mu_y mu_m mu_t forallb length]. rewrite !L, ?L' by Lra.lra. reflexivity.
  - assert (I5 : (5 < length (elements_of mesh1))%nat) by (vm_compute; lia).
    assert (E5 : -20 <= snd (nth 5 (elements_of mesh1) (0, 0)) /\ fst (nth 5 (elements_of mesh1) (0, 0)) <= -4) by (vm_compute; split; discriminate).
    eapply (C140_site_refuted rnd0 ch0 sort0 all_on ex_l 0 (-1) soil_object [-1] 2 ex_p 2 (-8) mesh1 _ _ 5%nat sort_exists SS eq_refl); [|left; reflexivity|reflexivity|exact I5|exact (proj1 E5)|exact (proj2 E5)].
    right. do 7 eexists. split; [reflexivity|]. right; left. eexists; reflexivity.
Qed.
