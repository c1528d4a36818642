(** Property C137: the number of nodes of the mesh. *)
From Coq Require Import List Bool Arith ZArith QArith Lia Lqa.
From Verif Require Import Base PileModel PileSpec MeshModel MeshSpec MeshProofs MeshProps CreateModel FewSpec FewProofs.
Import ListNotations.
Local Open Scope Q_scope.

(** Between two neighbouring elevations that were asked for the nodes divide the distance into equal
    elements, as few as the coarseness allows. *)
Theorem C137_equal_elements : forall p b s x c m u v, 0 < c -> mesh p b s x c = Some m ->
  neighbours (wanted p b s x) u v ->
  exists n, parts c (u - v) n /\ forall y, v < y -> y < u ->
    (contains m y <-> exists k, (1 <= k < n)%nat /\ y == u - Qnat k * ((u - v) / Qnat n)).
Proof. exact mesh_between. Qed.
Print Assumptions C137_equal_elements.

Theorem C137_no_other_nodes : forall p b s x c m y, 0 < c -> mesh p b s x c = Some m -> contains m y ->
  wanted p b s x y \/ exists u v, neighbours (wanted p b s x) u v /\ v < y /\ y < u.
Proof. exact mesh_nowhere_else. Qed.
Print Assumptions C137_no_other_nodes.

(** The number of nodes. *)
Theorem C137_count : forall p b s x c m l, 0 < c -> mesh p b s x c = Some m -> lists (wanted p b s x) l ->
  exists ns, Forall2 (parts c) (gaps l) ns /\ length m = (Nat.min 1 (length l) + total ns)%nat.
Proof. exact mesh_count. Qed.
Print Assumptions C137_count.

Theorem C137_bounds : forall p b s x c m l a k q, 0 < c -> mesh p b s x c = Some m -> lists (wanted p b s x) l ->
  nth_error l 0 = Some a -> length l = S (S k) -> nth_error l (S k) = Some q ->
  a - q <= c * Qnat (length m - 1) /\ c * Qnat (length m - 1) < (a - q) + c * Qnat (S k).
Proof. exact mesh_bounds. Qed.
Print Assumptions C137_bounds.

(** No mesh with the elevations asked for and elements within the coarseness has fewer nodes. *)
Theorem C137_fewest : forall p b s x c m w, 0 < c -> mesh p b s x c = Some m ->
  strictly_descending w -> (forall y, wanted p b s x y -> contains w y) -> within c w -> (length m <= length w)%nat.
Proof. exact mesh_fewest. Qed.
Print Assumptions C137_fewest.

Theorem C137_finer : forall p b s x c m p' b' s' x' c' m', 0 < c' -> c' <= c ->
  (forall y, wanted p b s x y -> wanted p' b' s' x' y) ->
  mesh p b s x c = Some m -> mesh p' b' s' x' c' = Some m' -> (length m <= length m')%nat.
Proof. exact mesh_more. Qed.
Print Assumptions C137_finer.

(** The mesh depends on the set of elevations only: not on their order, on repetitions or on who asked for them. *)
Theorem C137_set_of_elevations : forall p b s x c m p' b' s' x' m', 0 < c ->
  (forall y, wanted p b s x y <-> wanted p' b' s' x' y) ->
  mesh p b s x c = Some m -> mesh p' b' s' x' c = Some m' ->
  Forall2 Qeq m m' /\ nodes_of m = nodes_of m' /\ elements_of m = elements_of m'.
Proof. exact mesh_set. Qed.
Print Assumptions C137_set_of_elevations.

(** A model that is accepted has five elements at least. *)
Theorem C137_five : forall p t b s x c m sb, pile_top p = Ok t -> pile_bottom p = Ok b ->
  accept_model (t - b) c b sb = Ok tt -> mesh p b s x c = Some m -> (5 <= length (elements_of m))%nat.
Proof. exact mesh_five. Qed.
Print Assumptions C137_five.

(** The nodes of a mesh are nodes of the mesh of a fraction of the coarseness when the coarseness divides
    every distance; not in general. *)
Theorem C137_nested_partial : forall p b s x c m k m' y, 0 < c -> (1 <= k)%nat ->
  (forall u v, neighbours (wanted p b s x) u v -> exists N, u - v == c * Qnat N) ->
  mesh p b s x c = Some m -> mesh p b s x (c / Qnat k) = Some m' -> contains m y -> contains m' y.
Proof. exact mesh_nested. Qed.
Print Assumptions C137_nested_partial.

Definition few_pile := [mkSection 0 (-7) 1 1 1 1 1 1 1].

Theorem C137_nested_refuted : exists p b c m m' y, make_pile p = Ok p /\ pile_bottom p = Ok b /\
  accept_model 7 c b None = Ok tt /\ mesh p b None [] c = Some m /\ mesh p b None [] (c / Qnat 2) = Some m' /\
  contains m y /\ ~ contains m' y.
Proof.
  exists few_pile, (-7), 1.3. do 2 eexists. exists (-(7#2)).
  split; [reflexivity|]. split; [reflexivity|]. split; [reflexivity|].
  split; [vm_compute; reflexivity|]. split; [vm_compute; reflexivity|]. split.
  - eexists. split; [do 3 right; left; reflexivity|]. reflexivity.
  - intros (q & H & E). repeat (destruct H as [<-|H]; [vm_compute in E; discriminate|]). destruct H.
Qed.
Print Assumptions C137_nested_refuted.

Example C137_example : exists m, mesh ex_pile (-8) ex_soil [-5.5] 2 = Some m /\ length m = 8%nat /\
  wanted ex_pile (-8) ex_soil [-5.5] (-5.5) /\ parts 2 3 2 /\
  lists (wanted ex_pile (-8) ex_soil [-5.5]) (primary ex_pile (-8) ex_soil [-5.5]) /\
  map Qred (primary ex_pile (-8) ex_soil [-5.5]) = [2; 0; -3; -4; -11#2; -8].
Proof.
  eexists. split; [vm_compute; reflexivity|]. split; [reflexivity|].
  split; [left; right; right; eexists; split; [left|]; reflexivity|].
  split; [|split; [split; [apply desc_nth, primary_desc|intros y; apply wanted_primary]|vm_compute; reflexivity]].
  split; [lia|]. split; [vm_compute; discriminate|]. intros k K H.
  destruct k as [|[|k]]; [lia|vm_compute in H; congruence|lia].
Qed.

Example C137_example_nested : exists m m', mesh few_pile (-7) None [] 1 = Some m /\ mesh few_pile (-7) None [] (1 / Qnat 2) = Some m' /\
  length m = 8%nat /\ length m' = 15%nat /\
  (forall u v, neighbours (wanted few_pile (-7) None []) u v -> exists N, u - v == 1 * Qnat N).
Proof.
  do 2 eexists. split; [vm_compute; reflexivity|]. split; [vm_compute; reflexivity|].
  split; [reflexivity|]. split; [reflexivity|]. intros u v (U & V & L & _). exists 7%nat.
  assert (W : forall y, wanted few_pile (-7) None [] y -> y == 0 \/ y == -7).
  { intros y [[(s & [<-|[]] & [E|E])|[(ls & l & E & _)|(q & [] & _)]]|(_ & ls & l & E & _)]; auto; discriminate. }
  assert (E7 : Qnat 7 == 7) by reflexivity. rewrite E7.
  destruct (W u U), (W v V); lra.
Qed.

(** The x2mesh elevations -3 and -5.5 in another order and twice; -3 is also the end of a section. *)
Example C137_example_set : (forall y, wanted ex_pile (-8) ex_soil [-3; -5.5] y <-> wanted ex_pile (-8) ex_soil [-5.5; -3; -5.5] y) /\
  exists m, mesh ex_pile (-8) ex_soil [-3; -5.5] 2 = Some m.
Proof.
  split; [|eexists; vm_compute; reflexivity].
  assert (E : forall y, contains [-3; -5.5] y <-> contains [-5.5; -3; -5.5] y) by (intros y; rewrite !contains_cons; pose proof (contains_nil y); tauto).
  intros y. unfold wanted, requested. rewrite (E y). tauto.
Qed.
