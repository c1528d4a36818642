(** Properties C19-C22 and C58: element properties, overburden, weights, tip stress, shaft resistance. *)
From Coq Require Import List Bool ZArith QArith Qabs Qminmax Permutation Lqa.
From Verif Require Import Base PileModel PileSpec PileProofs MeshModel MeshSpec MeshProofs StressModel StressSpec
  StressProofs WeightProofs GridProofs ShaftProofs.
Import ListNotations.
Local Open Scope Q_scope.

(** C19: full statement: every element lying in a section carries that section's properties.
    False of the code for every section but the top one; the parts that hold follow. *)
Theorem C19_own_or_adjacent_partial : forall l p rows s z, proper l -> make_pile l = Ok p ->
  ascending_of rows (data_rows p) -> In s p -> s_bottom s < z -> z <= s_top s ->
  exists s', asof_forward rows z = Some s' /\ In s' p /\ (s' = s \/ s_bottom s' == s_top s).
Proof. exact element_row. Qed.
Print Assumptions C19_own_or_adjacent_partial.

Theorem C19_top_section_partial : forall l p rows s t z, proper l -> make_pile l = Ok p -> p = s :: t ->
  ascending_of rows (data_rows p) -> s_bottom s < z -> z <= s_top s -> asof_forward rows z = Some s.
Proof. exact top_section_row. Qed.
Print Assumptions C19_top_section_partial.

Theorem C19_uniform_property_partial : forall A (f : section -> A) l p rows s e, proper l -> make_pile l = Ok p ->
  ascending_of rows (data_rows p) -> In s p -> in_section s e ->
  (forall s', In s' p -> s_bottom s' == s_top s -> f s' = f s) ->
  element_property f rows e = Some (f s).
Proof. exact property_if_equal. Qed.
Print Assumptions C19_uniform_property_partial.

(** With a stable sort every element of a lower section is given the section above it. *)
Theorem C19_lower_sections_refuted : forall l p i a s e, proper l -> make_pile l = Ok p ->
  nth_error p i = Some a -> nth_error p (S i) = Some s -> in_section s e ->
  asof_forward (stable_rows p) (fst e) = Some a.
Proof. exact wrong_section_always. Qed.
Print Assumptions C19_lower_sections_refuted.

Theorem C19_wrong_section_refuted : exists l p s e, proper l /\ make_pile l = Ok p /\ In s p /\ in_section s e /\
  ascending_of (stable_rows p) (data_rows p) /\
  element_property s_width (stable_rows p) e = Some 2 /\ s_width s = 3.
Proof. exact wrong_section. Qed.
Print Assumptions C19_wrong_section_refuted.

(** C20 *)
Theorem C20_stress_is_overburden : forall l p b layers d g water x c m,
  proper l -> make_pile l = Ok p -> pile_bottom p = Ok b ->
  Permutation layers d -> exact_stack g d -> stack_bottom g d <= b -> b < g -> d <> [] ->
  (forall y, In y x -> b <= y) -> 0.01 <= c -> mesh p b (Some layers) x c = Some m ->
  (forall y, requested p b (Some layers) x y -> four_decimals y) ->
  water_at (requested p b (Some layers) x) water ->
  exists above e0 below tops bots, elements_of m = above ++ e0 :: below /\
    (forall e, In e above -> g < fst e) /\ chain g (e0 :: below) /\
    stress layers g water (elements_of m) = Ok (tops, bots) /\
    Forall2 nan_eq tops (map (fun _ => None) above ++ map (fun e => Some (overburden layers water (fst e))) (e0 :: below)) /\
    Forall2 nan_eq bots (map (fun _ => None) above ++ map (fun e => Some (overburden layers water (snd e))) (e0 :: below)).
Proof. exact requested_stress. Qed.
Print Assumptions C20_stress_is_overburden.

Theorem C20_overburden_grows_with_depth : forall layers water z z', (forall l, In l layers -> 10 < l_weight l) -> z <= z' ->
  0 <= overburden layers water z' /\ overburden layers water z' <= overburden layers water z.
Proof. exact overburden_antitone. Qed.
Print Assumptions C20_overburden_grows_with_depth.

Theorem C20_zero_at_ground : forall layers d g water, Permutation layers d -> exact_stack g d -> overburden layers water g == 0.
Proof. exact overburden_ground. Qed.
Print Assumptions C20_zero_at_ground.

(** Without a node at the ground elevation the table cannot be built. *)
Theorem C20_needs_ground_node : forall layers g water elems, (forall e, In e elems -> ~ fst e == g) ->
  stress layers g water elems = Err ValueError.
Proof. exact stress_needs_ground_node. Qed.
Print Assumptions C20_needs_ground_node.

Theorem C20_ground_off_grid_refuted : exists p b g layers c m, make_pile p = Ok p /\ proper p /\ pile_bottom p = Ok b /\
  make_profile g layers = Ok layers /\ 0.01 <= c /\ mesh p b (Some layers) [] c = Some m /\
  stress layers g 0 (elements_of m) = Err ValueError.
Proof. exact ground_off_grid. Qed.
Print Assumptions C20_ground_off_grid_refuted.

Theorem C20_water_off_mesh_refuted : exists p b g layers water c m tops bots s, make_pile p = Ok p /\ proper p /\ pile_bottom p = Ok b /\
  make_profile g layers = Ok layers /\ 0.01 <= c /\ mesh p b (Some layers) [] c = Some m /\
  stress layers g water (elements_of m) = Ok (tops, bots) /\ last bots None = Some s /\
  s == 280 /\ overburden layers water b == 260.
Proof. exact water_off_mesh. Qed.
Print Assumptions C20_water_off_mesh_refuted.

Definition ex_l := [mkSection (-3) (-8) 2 3 4 1 1 1 1; mkSection 2 (-3) 1 1 1 1 1 1 1].
Definition ex_p := [mkSection 2 (-3) 1 1 1 1 1 1 1; mkSection (-3) (-8) 2 3 4 1 1 1 1].
Definition ex_ls := [mkLayer (-4) (-20) 19; mkLayer 0 (-4) 18].
Definition ex_d := [mkLayer 0 (-4) 18; mkLayer (-4) (-20) 19].

Lemma ex_requested : forall y, requested ex_p (-8) (Some ex_ls) [-1] y -> y == 2 \/ y == -3 \/ y == -8 \/ y == 0 \/ y == -4 \/ y == -1.
Proof.
  intros y [(s & [<-|[<-|[]]] & H)|[(ls & y' & E & I & H & B)|(u & [<-|[]] & H)]]; cbn in H; try tauto.
  - inversion E; subst ls. destruct I as [<-|[<-|[]]]; cbn in H; destruct H as [H|H]; try tauto. lra.
  - symmetry in H. tauto.
Qed.

Example C20_example : exists m, proper ex_l /\ make_pile ex_l = Ok ex_p /\ pile_bottom ex_p = Ok (-8) /\ pile_top ex_p = Ok 2 /\
  Permutation ex_ls ex_d /\ exact_stack 0 ex_d /\ stack_bottom 0 ex_d <= -8 /\
  mesh ex_p (-8) (Some ex_ls) [-1] 2 = Some m /\
  (forall y, requested ex_p (-8) (Some ex_ls) [-1] y -> four_decimals y) /\
  water_at (requested ex_p (-8) (Some ex_ls) [-1]) (-1) /\
  overburden ex_ls (-1) (-4) == 18 * 1 + 8 * 3 /\
  option_map Qred (effective_pile_weight 78 (-1) ex_p (elements_of m)) = Some (78 * 3 + 68 * 2 + 68 * 15) /\
  match stress ex_ls 0 (-1) (elements_of m) with
  | Ok (t, bt) => map (option_map Qred) bt = [None; Some 18; Some 34; Some 42; Some 60; Some 78]
  | Err _ => False
  end.
Proof.
  eexists. split; [intros s [<-|[<-|[]]]; reflexivity|]. split; [vm_compute; reflexivity|]. split; [reflexivity|].
  split; [reflexivity|].
  split; [apply perm_swap|]. split; [simpl; repeat split; reflexivity|]. split; [vm_compute; discriminate|].
  split; [vm_compute; reflexivity|]. split.
  { intros y H. apply ex_requested in H. destruct H as [H|[H|[H|[H|[H|H]]]]].
    - exists 20000%Z; rewrite H; reflexivity.
    - exists (-30000)%Z; rewrite H; reflexivity.
    - exists (-80000)%Z; rewrite H; reflexivity.
    - exists 0%Z; rewrite H; reflexivity.
    - exists (-40000)%Z; rewrite H; reflexivity.
    - exists (-10000)%Z; rewrite H; reflexivity. }
  split. { left. right; right. exists (-1). split; [left|]; reflexivity. }
  split; [vm_compute; reflexivity|]. split; [vm_compute; reflexivity|]. vm_compute. reflexivity.
Qed.

(** C21 *)
Theorem C21_value_of_enclosing_section : forall A (f : section -> A) l p s elems i e, proper l -> make_pile l = Ok p -> In s p ->
  nth_error elems i = Some e -> in_section s e ->
  nth_error (parameter2elements (section_objs f p) elems) i = Some (Some (f s)).
Proof. exact p2e_value. Qed.
Print Assumptions C21_value_of_enclosing_section.

Theorem C21_nan_outside : forall A (objs : list (Q * Q * A)) elems i e, nth_error elems i = Some e ->
  (forall t b v, In (t, b, v) objs -> ~ (fst e <= t /\ b <= snd e)) ->
  nth_error (parameter2elements objs elems) i = Some None.
Proof. exact p2e_nan. Qed.
Print Assumptions C21_nan_outside.

Theorem C21_last_object_wins : forall A (o1 o2 : list (Q * Q * A)) t b v elems i e, nth_error elems i = Some e ->
  fst e <= t -> b <= snd e -> (forall t' b' v', In (t', b', v') o2 -> ~ (fst e <= t' /\ b' <= snd e)) ->
  nth_error (parameter2elements (o1 ++ (t, b, v) :: o2) elems) i = Some (Some v).
Proof. exact p2e_last_wins. Qed.
Print Assumptions C21_last_object_wins.

Theorem C21_pile_weight : forall l p t b s x c m uw water,
  proper l -> make_pile l = Ok p -> pile_top p = Ok t -> pile_bottom p = Ok b ->
  0.01 <= c -> mesh p b s x c = Some m -> (forall y, requested p b s x y -> four_decimals y) ->
  (forall ls y, s = Some ls -> In y ls -> l_top y <= t /\ l_bottom y <= t) -> (forall y, In y x -> b <= y /\ y <= t) ->
  water_at (requested p b s x) water ->
  (exists v, n_sum (volumes s_area p (elements_of m)) = Some v /\ v == pile_volume p) /\
  exists w, effective_pile_weight uw water p (elements_of m) = Some w /\
    w == Qsum (map (fun q => s_area q * (uw * height (Qmax (s_bottom q) water) (s_top q)
                                         + (uw - 10) * height (s_bottom q) (Qmin (s_top q) water))) l).
Proof. exact requested_pile_weight. Qed.
Print Assumptions C21_pile_weight.

Theorem C21_entrapped_weight : forall l p t b layers d g x c m water,
  proper l -> make_pile l = Ok p -> pile_top p = Ok t -> pile_bottom p = Ok b ->
  Permutation layers d -> exact_stack g d -> g <= t ->
  0.01 <= c -> mesh p b (Some layers) x c = Some m -> (forall y, requested p b (Some layers) x y -> four_decimals y) ->
  (forall y, In y x -> b <= y /\ y <= t) -> water_at (requested p b (Some layers) x) water ->
  exists w, entrapped_soil_weight water p layers (elements_of m) = Some w /\
    w == Qsum (map (fun q => Qsum (map (fun y => s_entrapped q *
           (l_weight y * overlap_dry water q y + (l_weight y - 10) * overlap_wet water q y)) layers)) l).
Proof. exact requested_entrapped_weight. Qed.
Print Assumptions C21_entrapped_weight.

Theorem C21_head_off_grid_refuted : exists l p t b c m, proper l /\ make_pile l = Ok p /\ pile_top p = Ok t /\ pile_bottom p = Ok b /\
  0.01 <= c /\ mesh p b (Some [mkLayer 0 (-20) 18]) [] c = Some m /\
  effective_pile_weight 78 0 p (elements_of m) = None.
Proof. exact nan_weight. Qed.
Print Assumptions C21_head_off_grid_refuted.

(** C22: full statement: the result is the overburden at the tip.  True only of the topmost layer. *)
Theorem C22_only_first_layer_partial : forall tip water mud layers d g l t, Permutation layers d -> exact_stack g d -> d = l :: t ->
  tip_sig_v_eff tip water mud layers = Some (tip_layer_stress tip water mud l).
Proof. exact tip_first_layer. Qed.
Print Assumptions C22_only_first_layer_partial.

Theorem C22_single_layer_partial : forall tip water mud l, l_bottom l < l_top l ->
  (tip <= l_bottom l \/ l_bottom l < water \/ l_top l <= tip) ->
  exists s, tip_sig_v_eff tip water mud [l] = Some s /\ s == mud + overburden [l] water tip.
Proof. exact tip_single. Qed.
Print Assumptions C22_single_layer_partial.

Theorem C22_two_layers_refuted : exists layers g tip water s, exact_stack g layers /\ stack_bottom g layers <= tip /\
  tip_sig_v_eff tip water 0 layers = Some s /\ s == 80 /\ overburden layers water tip == 170.
Proof. exact tip_two_layers. Qed.
Print Assumptions C22_two_layers_refuted.

Theorem C22_dry_layer_refuted : exists l tip water s, l_bottom l < tip /\ tip < l_top l /\
  tip_sig_v_eff tip water 0 [l] = Some s /\ s == 0 /\ overburden [l] water tip == 180.
Proof. exact tip_dry_layer. Qed.
Print Assumptions C22_dry_layer_refuted.

Example C22_example : exists s, tip_sig_v_eff (-10) (-4) 5 [mkLayer 0 (-20) 18] = Some s /\ s == 5 + 18 * 4 + 8 * 6.
Proof. eexists. split; vm_compute; reflexivity. Qed.

(** C58: full statement: the sum is the trapezoidal integral of the extreme friction. *)
Theorem C58_continuous_friction_partial : forall s z phi infl, (s == 1 \/ s == -(1)) -> strictly_descending z ->
  influence z = Some infl -> length phi = length z -> (forall f, In f phi -> 0 <= f * s) ->
  shaft_sum (nodal phi) infl == trapezoid (nodal phi) (diffs z).
Proof. exact shaft_continuous. Qed.
Print Assumptions C58_continuous_friction_partial.

Theorem C58_uniform_mesh_partial : forall h z f infl, 0 < h ->
  (forall i u v, nth_error z i = Some u -> nth_error z (S i) = Some v -> u - v == h) ->
  influence z = Some infl -> length z = S (length f) -> (forall p, In p f -> 0 <= fst p * snd p) ->
  shaft_sum f infl == trapezoid f (map (fun _ => h) f).
Proof. exact shaft_uniform. Qed.
Print Assumptions C58_uniform_mesh_partial.

Theorem C58_layer_jump_refuted : exists z f infl, strictly_descending z /\ influence z = Some infl /\
  length z = S (length f) /\ (forall p, In p f -> fst p == snd p) /\
  shaft_sum f infl == 12.5 /\ trapezoid f (diffs z) == 10.
Proof. exact shaft_wrong. Qed.
Print Assumptions C58_layer_jump_refuted.

Example C58_example : exists infl, influence [0; -1; -3; -4] = Some infl /\
  shaft_sum (nodal [-1; -2; -4; -4]) infl == 1.5 + 6 + 4.
Proof. eexists. split; vm_compute; reflexivity. Qed.
