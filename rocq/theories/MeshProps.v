(** Properties C15-C18 and C57: the mesh. *)
From Coq Require Import List ZArith QArith Qabs.
From Verif Require Import Base BCModel BCSpec PileModel PileSpec PileProofs MeshModel MeshSpec MeshProofs.
Import ListNotations.
Local Open Scope Q_scope.

(** C15 *)
Theorem C15_mesh_terminates : forall p b s x c, 0 < c -> exists m, mesh p b s x c = Some m.
Proof. exact mesh_exists. Qed.
Print Assumptions C15_mesh_terminates.

Theorem C15_mesh_strictly_descending : forall p b s x c m, mesh p b s x c = Some m ->
  strictly_descending m.
Proof. exact mesh_descending. Qed.
Print Assumptions C15_mesh_strictly_descending.

Theorem C15_mesh_contains_requested : forall p b s x c m y, 0 < c -> mesh p b s x c = Some m ->
  requested p b s x y -> contains m y.
Proof. exact mesh_contains_requested. Qed.
Print Assumptions C15_mesh_contains_requested.

Definition ex_pile := [mkSection 2 (-3) 1 1 1 1 1 1 1; mkSection (-3) (-8) 1 1 1 1 1 1 1].
Definition ex_soil := Some [mkLayer 0 (-4) 18; mkLayer (-4) (-20) 19].

Example C15_example : exists m, mesh ex_pile (-8) ex_soil [-5.5] 2 = Some m /\
  requested ex_pile (-8) ex_soil [-5.5] (-4) /\ requested ex_pile (-8) ex_soil [-5.5] (-5.5) /\
  map Qred m = [2; 0; -3#2; -3; -4; -11#2; -27#4; -8].
Proof.
  eexists. split; [vm_compute; reflexivity|]. split; [|split; [|vm_compute; reflexivity]].
  - right; left. eexists _, (mkLayer 0 (-4) 18). split; [reflexivity|]. split; [left; reflexivity|].
    split; [right; reflexivity|vm_compute; discriminate].
  - right; right. exists (-5.5). split; [left|]; reflexivity.
Qed.

(** C16 *)
Theorem C16_spacing_within_coarseness : forall p b s x c m i u v, 0 < c -> mesh p b s x c = Some m ->
  nth_error m i = Some u -> nth_error m (S i) = Some v -> 0 < u - v /\ u - v <= c.
Proof. exact mesh_spacing. Qed.
Print Assumptions C16_spacing_within_coarseness.

Theorem C16_rounded_elements_within_coarseness : forall p b s x c m e, 0 < c -> mesh p b s x c = Some m ->
  In e (elements_of m) -> fst e - snd e <= c + (1#10000).
Proof. exact elements_not_longer. Qed.
Print Assumptions C16_rounded_elements_within_coarseness.

(** No needless refinement: unless two primary elevations are closer, nodes stay further apart
    than any length below half the coarseness. *)
Theorem C16_no_needless_refinement : forall p b s x c m g i u v, 0 < c -> 0 <= g -> g < c / 2 ->
  mesh p b s x c = Some m ->
  (forall y z, contains (primary p b s x) y -> contains (primary p b s x) z -> y < z -> g < z - y) ->
  nth_error m i = Some u -> nth_error m (S i) = Some v -> g < u - v /\ u - v <= c.
Proof. exact mesh_spacing_low. Qed.
Print Assumptions C16_no_needless_refinement.

Theorem C16_primary_elevations : forall p b s x y, contains (primary p b s x) y <->
  requested p b s x y \/
  (y == b /\ exists ls l, s = Some ls /\ In l ls /\ (l_top l < b \/ l_bottom l < b)).
Proof. exact primary_requested. Qed.
Print Assumptions C16_primary_elevations.

Example C16_example : exists m, mesh ex_pile (-8) ex_soil [] 2 = Some m /\ (length m = 7)%nat.
Proof. eexists. split; vm_compute; reflexivity. Qed.

(** C17 *)
Theorem C17_elements_join_consecutive_nodes : forall m i t b,
  nth_error (elements_of m) i = Some (t, b) <->
  nth_error (nodes_of m) i = Some t /\ nth_error (nodes_of m) (S i) = Some b.
Proof. exact elements_nth. Qed.
Print Assumptions C17_elements_join_consecutive_nodes.

Theorem C17_heights_sum_to_mesh : forall m a, (exists t, m = a :: t) ->
  total_height (elements_of m) == round4 a - round4 (last m a).
Proof. exact elements_total. Qed.
Print Assumptions C17_heights_sum_to_mesh.

Theorem C17_positive_length_partial : forall p b s x c m e, 0.01 <= c -> mesh p b s x c = Some m ->
  (forall y z, contains (primary p b s x) y -> contains (primary p b s x) z -> y < z -> 1#10000 < z - y) ->
  In e (elements_of m) -> snd e < fst e /\ fst e - snd e <= c + (1#10000).
Proof. exact elements_positive. Qed.
Print Assumptions C17_positive_length_partial.

(** Two requested elevations that round to the same value give an element of length zero. *)
Theorem C17_positive_length_refuted : exists p b s x c m e, 0.01 <= c /\
  mesh p b s x c = Some m /\ In e (elements_of m) /\ fst e - snd e == 0.
Proof. exact zero_length_element. Qed.
Print Assumptions C17_positive_length_refuted.

Example C17_example : exists m, mesh ex_pile (-8) ex_soil [] 2 = Some m /\
  map (fun e => (Qred (fst e), Qred (snd e))) (elements_of m) =
    [(2, 0); (0, -3#2); (-3#2, -3); (-3, -4); (-4, -6); (-6, -8)].
Proof. eexists. split; vm_compute; reflexivity. Qed.

(** C18 *)
Theorem C18_mesh_covers_pile_partial : forall l p t b soil x c m, proper l -> make_pile l = Ok p ->
  pile_top p = Ok t -> pile_bottom p = Ok b -> 0 < c -> mesh p b soil x c = Some m ->
  (forall ls y, soil = Some ls -> In y ls -> l_top y <= t /\ l_bottom y <= t) ->
  (forall y, In y x -> b <= y /\ y <= t) ->
  exists m', nodes_of m = m' /\ hd_error m' = Some (round4 t) /\ last m' t = round4 b.
Proof. exact mesh_covers. Qed.
Print Assumptions C18_mesh_covers_pile_partial.

(** Ground above the pile head: the first node is above the pile. *)
Theorem C18_soil_above_pile_refuted : exists l p t b soil c m z,
  proper l /\ make_pile l = Ok p /\ pile_top p = Ok t /\ pile_bottom p = Ok b /\
  mesh p b (Some soil) [] c = Some m /\ In z (nodes_of m) /\ t < z.
Proof. exact soil_above_pile. Qed.
Print Assumptions C18_soil_above_pile_refuted.

(** A user elevation below the tip: the mesh extends below the pile. *)
Theorem C18_x2mesh_below_tip_refuted : exists l p b x c m z,
  proper l /\ make_pile l = Ok p /\ pile_bottom p = Ok b /\
  mesh p b None x c = Some m /\ In z (nodes_of m) /\ z < b.
Proof. exact x2mesh_below_tip. Qed.
Print Assumptions C18_x2mesh_below_tip_refuted.

Example C18_example : exists m, make_pile ex_pile = Ok ex_pile /\ proper ex_pile /\
  mesh ex_pile (-8) ex_soil [-5.5] 2 = Some m /\
  (forall ls y, ex_soil = Some ls -> In y ls -> l_top y <= 2 /\ l_bottom y <= 2).
Proof.
  eexists. split; [vm_compute; reflexivity|]. split; [intros s [<-|[<-|[]]]; reflexivity|].
  split; [vm_compute; reflexivity|]. intros ls y H. inversion H; subst ls.
  intros [<-|[<-|[]]]; split; vm_compute; discriminate.
Qed.

(** C57 *)
Theorem C57_condition_at_requested_elevation_is_applied : forall p b s x c m e, 0 < c ->
  mesh p b s x c = Some m -> requested p b s x e -> exists i, maps_to (nodes_of m) e i.
Proof. exact requested_applied. Qed.
Print Assumptions C57_condition_at_requested_elevation_is_applied.

Theorem C57_on_its_own_node_partial : forall p b s x c m e g, 0 < c -> mesh p b s x c = Some m ->
  requested p b s x e -> 0.0011 + 0.00001 * Qabs e <= g -> g < c / 2 ->
  (forall y z, contains (primary p b s x) y -> contains (primary p b s x) z -> y < z -> g < z - y) ->
  exists i, maps_to (nodes_of m) e i /\ nth_error (nodes_of m) i = Some (round4 e).
Proof. exact requested_own_node. Qed.
Print Assumptions C57_on_its_own_node_partial.

(** With two requested elevations 0.5 mm apart the condition given at the lower one lands on the
    upper one, although the lower one is a node. *)
Theorem C57_own_node_refuted : exists p b x c m e i,
  0.01 <= c /\ mesh p b None x c = Some m /\ requested p b None x e /\ In e (nodes_of m) /\
  first_close (nodes_of m) e = Some i /\ nth i (nodes_of m) e <> e /\ ~ nth i (nodes_of m) e == e.
Proof. exact wrong_node. Qed.
Print Assumptions C57_own_node_refuted.

(** An elevation inside the pile that is no node gets no node. *)
Theorem C57_unrequested_elevation_dropped_refuted : exists p b c m e,
  0.01 <= c /\ mesh p b None [] c = Some m /\ b < e /\ e < 0 /\ pile_top p = Ok 0 /\
  first_close (nodes_of m) e = None.
Proof. exact dropped. Qed.
Print Assumptions C57_unrequested_elevation_dropped_refuted.
