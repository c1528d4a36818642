(** Properties C93-C100: materials, pile tables and printing, warnings, node numbers of spring tables,
    Model.create, elevations of a model, validation helpers. *)
From Coq Require Import String List Bool Arith ZArith QArith Qabs Qminmax Permutation Lia Lqa.
From Verif Require Import Base PileModel PileSpec PileProofs MeshModel CreateModel AccessModel AccessSpec AccessProofs.
Import ListNotations.
Local Open Scope Q_scope.

(** C93 *)
Theorem C93_accepted_iff : forall name uw E nu m, make_material name uw E nu = Ok m <->
  (1 <= String.length name <= 20)%nat /\ 0 < uw /\ 0 < E /\ -1 < nu /\ nu <= 1#2 /\ m = mkMaterial name uw E nu.
Proof. exact material_accepted. Qed.
Print Assumptions C93_accepted_iff.

Theorem C93_refusal_is_value_error : forall name uw E nu e, make_material name uw E nu = Err e -> e = ValueError.
Proof. exact material_error. Qed.
Print Assumptions C93_refusal_is_value_error.

Theorem C93_shear_modulus : forall name uw E nu m, make_material name uw E nu = Ok m ->
  m_E m == 2 * m_shear m * (1 + m_nu m) /\ 0 < m_shear m /\ m_E m <= 3 * m_shear m.
Proof. exact material_shear. Qed.
Print Assumptions C93_shear_modulus.

(** A material object is taken as it is, whatever its name; a name must be one of the two. *)
Theorem C93_material_of_pile : forall a m, pile_material a = Ok m <->
  a = Given m \/ (a = Named "Steel" /\ m = steel) \/ (a = Named "Concrete" /\ m = concrete).
Proof. exact pile_material_cases. Qed.
Print Assumptions C93_material_of_pile.

Theorem C93_every_pile_is_stiff : forall a m, obtainable a -> pile_material a = Ok m ->
  0 < m_uw m /\ 0 < m_E m /\ 0 < m_shear m /\ m_E m == 2 * m_shear m * (1 + m_nu m).
Proof. exact pile_is_stiff. Qed.
Print Assumptions C93_every_pile_is_stiff.

Theorem C93_custom : forall uw E nu name, custom uw E nu name = make_material (or_else name "Custom"%string) uw E nu.
Proof. intros uw E nu [s|]; reflexivity. Qed.
Print Assumptions C93_custom.

Example C93_example : (exists m, custom 25 30000000 (15#100) None = Ok m /\ m_name m = "Custom"%string) /\
  custom 25 30000000 (6#10) None = Err ValueError /\ custom 25 30000000 (-1) None = Err ValueError /\
  (exists m, make_material "Steel" 1 1 0 = Ok m /\ pile_material (Given m) = Ok m /\ m <> steel) /\
  pile_material (Named "Wood") = Err ValueError /\ m_shear steel == 210000000 / 2.6.
Proof.
  split; [eexists; split; reflexivity|]. split; [reflexivity|]. split; [reflexivity|].
  split; [eexists; split; [reflexivity|]; split; [reflexivity|discriminate]|]. split; reflexivity.
Qed.

(** C94: reading Pile.data at any elevation of the pile gives the properties of the section there. *)
Theorem C94_table_describes_pile : forall l p z s, proper l -> make_pile l = Ok p -> In s l -> occupies s z ->
  (exists r, reads_at (pile_data p) z r) /\ forall r, reads_at (pile_data p) z r -> describes r s.
Proof. exact data_describes. Qed.
Print Assumptions C94_table_describes_pile.

Theorem C94_nothing_else : forall l p z r, proper l -> make_pile l = Ok p -> reads_at (pile_data p) z r ->
  exists s, In s l /\ occupies s z /\ describes r s.
Proof. exact data_nothing_else. Qed.
Print Assumptions C94_nothing_else.

Theorem C94_volumes : forall l p, make_pile l = Ok p ->
  integral r_area (pile_data p) == pile_volume p /\ integral r_entrapped (pile_data p) == inner_volume p.
Proof. exact data_volume. Qed.
Print Assumptions C94_volumes.

(** Material and hollow fill the outline of a pile of circular sections. *)
Theorem C94_gross_volume : forall l p, (forall s, In s l -> exists top bottom d t, circular top bottom d t = Ok s) ->
  make_pile l = Ok p ->
  pile_volume p + inner_volume p == Qsum (map (fun s => s_width s * s_width s * mpi / 4 * (s_top s - s_bottom s)) l).
Proof. exact gross_volume. Qed.
Print Assumptions C94_gross_volume.

Definition ex_a := mkSection 0 (-10) 2 (circ_area 2 (1#10)) (circ_inertia 2 (1#10)) (circ_entrapped 2 (1#10)) (circ_outer 2) (circ_inner 2 (1#10)) (circ_footprint 2).
Definition ex_b := mkSection (-10) (-40) 3 (circ_area 3 (2#10)) (circ_inertia 3 (2#10)) (circ_entrapped 3 (2#10)) (circ_outer 3) (circ_inner 3 (2#10)) (circ_footprint 3).

Example C94_example : circular 0 (-10) 2 (Some (1#10)) = Ok ex_a /\ circular (-10) (-40) 3 (Some (2#10)) = Ok ex_b /\
  make_pile [ex_b; ex_a] = Ok [ex_a; ex_b] /\ proper [ex_b; ex_a] /\ occupies ex_b (-12) /\
  reads_at (pile_data [ex_a; ex_b]) (-12) (row_of ex_b (-10)) /\ describes (row_of ex_b (-10)) ex_b /\
  length (pile_data [ex_a; ex_b]) = 4%nat.
Proof.
  split; [reflexivity|]. split; [reflexivity|]. split; [vm_compute; reflexivity|].
  split; [intros s [<-|[<-|[]]]; reflexivity|]. split; [split; [reflexivity|discriminate]|].
  split; [exists 2%nat, (row_of ex_b (-40)); split; [reflexivity|]; split; [reflexivity|]; split; [reflexivity|discriminate]|].
  split; [repeat split|reflexivity].
Qed.

(** C95: shape, printing, text report *)
Theorem C95_shape_iff : forall p, shape p = Some "Circular"%string <-> forall x, In x p -> exists w, ps_wall x = Some w.
Proof. exact shape_iff. Qed.
Print Assumptions C95_shape_iff.

Theorem C95_printing_never_fails : forall p, exists t, str_pile p = Ok t /\
  map (fun x => (pr_z x, pr_width x, pr_area x, pr_I x)) t =
  map (fun r => (r_z r, r_width r, r_area r, r_I r)) (pile_data (map ps_sec p)).
Proof. exact str_always. Qed.
Print Assumptions C95_printing_never_fails.

Theorem C95_printed_walls : forall p t, shape p = Some "Circular"%string -> str_pile p = Ok t ->
  map pr_wall t = flat_map (fun x => [ps_wall x; ps_wall x]) p.
Proof. exact str_walls. Qed.
Print Assumptions C95_printed_walls.

(** The shape of a pile with another kind of section is None, not "Undefined". *)
Theorem C95_shape_is_text_refuted : exists p, p <> [] /\ shape p = None.
Proof. exists [mkPS ex_a (Some (1#10)); mkPS ex_b None]. split; [discriminate|reflexivity]. Qed.
Print Assumptions C95_shape_is_text_refuted.

Theorem C95_never_undefined_refuted : forall p, shape p <> Some "Undefined"%string.
Proof. intros p H. destruct (shape_never_undefined p); congruence. Qed.
Print Assumptions C95_never_undefined_refuted.

(** The text report looks up attributes that no pile has. *)
Theorem C95_text_report_refuted : forall p, txt_pile p = Err AttributeError.
Proof. exact txt_fails. Qed.
Print Assumptions C95_text_report_refuted.

Example C95_example : exists x, circular_section 0 (-10) 2 None = Ok x /\ ps_wall x = Some (2 / 2) /\
  shape [x] = Some "Circular"%string /\ exists t, str_pile [x] = Ok t /\ length t = 2%nat.
Proof. eexists. split; [reflexivity|]. split; [reflexivity|]. split; [reflexivity|]. eexists; split; reflexivity. Qed.

(** C96: exactly the suspicious arrays among p-y, m-t, Hb, Mb are announced. *)
Theorem C96_announced_iff : forall a w, In w (fst (finish a)) <->
  suspicious (match w with WarnPy => a_py a | WarnMt => a_mt a | WarnHb => a_Hb a | WarnMb => a_Mb a end).
Proof. exact warnings_iff. Qed.
Print Assumptions C96_announced_iff.

Theorem C96_axial_turned : forall a x, sound (a_tz a) -> sound (a_qz a) ->
  In x (a_tz (snd (finish a))) \/ In x (a_qz (snd (finish a))) -> exists q, x = Some q /\ q <= 0.
Proof. intros a x T Z [H|H]; [eapply turn_sound; [exact T|exact H]|eapply turn_sound; [exact Z|exact H]]. Qed.
Print Assumptions C96_axial_turned.

Theorem C96_lateral_kept : forall a, a_py (snd (finish a)) = a_py a /\ a_mt (snd (finish a)) = a_mt a /\
  a_Hb (snd (finish a)) = a_Hb a /\ a_Mb (snd (finish a)) = a_Mb a /\
  forall i, nth_error (a_tz (snd (finish a))) i = option_map (option_map (fun q => q * (-1))) (nth_error (a_tz a) i) /\
            nth_error (a_qz (snd (finish a))) i = option_map (option_map (fun q => q * (-1))) (nth_error (a_qz a) i).
Proof. intros a. repeat split; auto; apply turned. Qed.
Print Assumptions C96_lateral_kept.

(** Axial springs are never looked at. *)
Theorem C96_axial_announced_refuted : exists a, suspicious (a_tz a) /\ suspicious (a_qz a) /\ fst (finish a) = [].
Proof.
  exists (mkArrays [Some 1] [] [] [] [None; Some (-1)] [None]). split; [exists None; split; [left|left]; reflexivity|].
  split; [exists None; split; [left|left]; reflexivity|reflexivity].
Qed.
Print Assumptions C96_axial_announced_refuted.

Example C96_example : fst (finish (mkArrays [Some 0; Some 2] [Some (-1)] [None] [Some 1] [] [])) = [WarnMt; WarnHb].
Proof. reflexivity. Qed.

(** C97: distributed and lumped tables number their rows as the nodes are numbered. *)
Theorem C97_table_numbers_are_nodes : forall n nodes i z, length nodes = S n ->
  (In (i, z) (numbered n nodes) <-> nth_error nodes i = Some z).
Proof. exact numbered_iff. Qed.
Print Assumptions C97_table_numbers_are_nodes.

Theorem C97_base_table_partial : forall n b ty f d t, base_table n b true ty f d = Some t ->
  exists r1 r2, t = [r1; r2] /\ b_z r1 = b /\ b_z r2 = b /\ b_val r1 = f /\ b_val r2 = d.
Proof. exact base_rows. Qed.
Print Assumptions C97_base_table_partial.

(** The number in a base spring table is that of no node. *)
Theorem C97_base_number_refuted : forall n b ty f d t r nodes, length nodes = S n ->
  base_table n b true ty f d = Some t -> In r t -> ~ exists z, In (b_node r, z) (numbered n nodes).
Proof. exact base_number. Qed.
Print Assumptions C97_base_number_refuted.

Theorem C97_no_soil_no_table : forall n b ty f d, base_table n b false ty f d = None.
Proof. reflexivity. Qed.
Print Assumptions C97_no_soil_no_table.

Example C97_example : In (2%nat, -4) (numbered 2 [0; -2; -4]) /\
  base_table 2 (-4) true ("Hb", "y")%string [1] [2] = Some [mkBase 3 (-4) "Hb" [1]; mkBase 3 (-4) "y" [2]].
Proof. split; [cbn; auto 10|reflexivity]. Qed.

(** C98 *)
Theorem C98_same_iff : forall k x, k_x2mesh k = Some x -> k_plugging k = None ->
  (forall c, k_coarseness k = Some c -> 1#100 <= c) ->
  (create k = model k <-> k_axial k <> None /\ k_base_axial k <> None).
Proof. exact create_same_iff. Qed.
Print Assumptions C98_same_iff.

Theorem C98_without_elevations_refuted : forall k, k_x2mesh k = None -> k_plugging k = None ->
  (forall c, k_coarseness k = Some c -> 1#100 <= c) -> create k = Err ValueError /\ exists s, model k = Ok s.
Proof. intros k X PL C. split; [apply create_without_x2mesh; auto|apply model_accepts; auto]. Qed.
Print Assumptions C98_without_elevations_refuted.

(** With the same arguments, create leaves the axial springs out and the constructor puts them in. *)
Theorem C98_same_defaults_refuted : exists k s s', create k = Ok s /\ model k = Ok s' /\
  o_axial s = false /\ o_base_axial s = false /\ o_axial s' = true /\ o_base_axial s' = true.
Proof.
  exists (mkKeywords None (Some []) None None None None None None None None). do 2 eexists.
  split; [reflexivity|]. split; [reflexivity|]. repeat split.
Qed.
Print Assumptions C98_same_defaults_refuted.

Example C98_example : exists s, create (mkKeywords None (Some [-1]) (Some 1) None None (Some true) None None (Some false) None) = Ok s /\
  model (mkKeywords None (Some [-1]) (Some 1) None None (Some true) None None (Some false) None) = Ok s.
Proof. eexists. split; reflexivity. Qed.

(** C99 *)
Theorem C99_top_is_highest : forall t g w b, let m := model_top t (Some (g, w, b)) in
  t <= m /\ g <= m /\ w <= m /\ (m == t \/ m == g \/ m == w).
Proof. exact top_is_highest. Qed.
Print Assumptions C99_top_is_highest.

Theorem C99_bottom_is_soil_bottom : forall len c pb t g w b, accept_model len c pb (Some b) = Ok tt -> b <= g ->
  model_bottom pb (Some (g, w, b)) == b /\ b <= pb /\ b <= model_top t (Some (g, w, b)).
Proof. exact bottom_is_soil. Qed.
Print Assumptions C99_bottom_is_soil_bottom.

Theorem C99_mesh_within_model : forall l p t b g w sb ls x c m z, proper l -> make_pile l = Ok p ->
  pile_top p = Ok t -> pile_bottom p = Ok b -> (forall k, In k ls -> l_top k <= g /\ l_bottom k <= g) ->
  (forall v, In v x -> b <= v /\ v <= model_top t (Some (g, w, sb))) -> 0 < c ->
  mesh p b (Some ls) x c = Some m -> In z m ->
  b <= z /\ z <= model_top t (Some (g, w, sb)).
Proof. exact mesh_within. Qed.
Print Assumptions C99_mesh_within_model.

Theorem C99_embedment_bounds : forall len c pb g w b e, accept_model len c pb (Some b) = Ok tt ->
  embedment pb (Some (g, w, b)) = Some e -> e <= g - b /\ (0 < e <-> pb < g).
Proof. exact embedment_bounds. Qed.
Print Assumptions C99_embedment_bounds.

(** A pile that ends above the ground is accepted, with a negative embedment. *)
Theorem C99_embedded_refuted : exists len c pb g w b e, b < g /\ accept_model len c pb (Some b) = Ok tt /\
  embedment pb (Some (g, w, b)) = Some e /\ e < 0.
Proof. exists 20, (1#2), 5, 0, 0, (-30), (0 - 5). repeat split. Qed.
Print Assumptions C99_embedded_refuted.

Example C99_example : accept_model 40 (1#2) (-40) (Some (-50)) = Ok tt /\ model_top 0 (Some (-10, 5, -50)) == 5 /\
  model_bottom (-40) (Some (-10, 5, -50)) == -50 /\ exists e, embedment (-40) (Some (-10, 5, -50)) = Some e /\ e == 30.
Proof. repeat split. exists (-10 - (-40)). split; reflexivity. Qed.

(** C100 *)
Theorem C100_choice_iff : forall v acc, str_must_be_one_of v acc = Ok tt <-> exists s, v = PyStr s /\ In s acc.
Proof. exact str_one_of_iff. Qed.
Print Assumptions C100_choice_iff.

Theorem C100_only_user_input_error : forall v acc l e,
  str_must_be_one_of v acc = Err e \/ numbers_in_list l = Err e -> e = UserInputError.
Proof.
  intros v acc l e [H|H].
  - revert H. unfold str_must_be_one_of, param_must_be. destruct v; cbn; try congruence. destruct (existsb _ _); congruence.
  - induction l as [|x t IH]; cbn in H; [discriminate|]. destruct (is_number x); [auto|congruence].
Qed.
Print Assumptions C100_only_user_input_error.

Theorem C100_numbers_iff_partial : forall l, numbers_in_list l = Ok tt <->
  forall v, In v l -> (exists b, v = PyBool b) \/ (exists z, v = PyInt z) \/ (exists q, v = PyFloat q).
Proof.
  intros l. rewrite numbers_iff. split; intros H v Hv; specialize (H v Hv).
  - destruct v; cbn in H; try discriminate; eauto.
  - destruct H as [(b & ->)|[(z & ->)|(q & ->)]]; reflexivity.
Qed.
Print Assumptions C100_numbers_iff_partial.

(** Truth values pass for numbers. *)
Theorem C100_only_numbers_refuted : exists l b, In (PyBool b) l /\ numbers_in_list l = Ok tt.
Proof. exists [PyBool true], true. split; [left|]; reflexivity. Qed.
Print Assumptions C100_only_numbers_refuted.

Example C100_example : str_must_be_one_of (PyStr "lumped") ["lumped"; "distributed"]%string = Ok tt /\
  str_must_be_one_of (PyInt 3) ["3"]%string = Err UserInputError /\
  numbers_in_list [PyInt 1; PyFloat 2] = Ok tt /\ numbers_in_list [PyInt 1; PyStr "2"] = Err UserInputError.
Proof. repeat split. Qed.
