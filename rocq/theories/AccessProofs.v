(** Proofs about what piles and models report. *)
From Coq Require Import String List Bool Arith ZArith QArith Qabs Qminmax Permutation Lia Lqa.
From Verif Require Import Base PileModel PileSpec PileProofs MeshModel MeshSpec MeshProofs CreateModel AccessModel AccessSpec.
Import ListNotations.
Local Open Scope Q_scope.

(** ** Materials *)

Lemma material_accepted : forall name uw E nu m, make_material name uw E nu = Ok m <->
  (1 <= String.length name <= 20)%nat /\ 0 < uw /\ 0 < E /\ -1 < nu /\ nu <= 1#2 /\ m = mkMaterial name uw E nu.
Proof.
  intros name uw E nu m. unfold make_material.
  destruct (String.length name <? 1)%nat eqn:A; [apply Nat.ltb_lt in A|apply Nat.ltb_ge in A].
  { cbn [orb]. split; [discriminate|lia]. }
  destruct (20 <? String.length name)%nat eqn:B; [apply Nat.ltb_lt in B|apply Nat.ltb_ge in B]; cbn [orb].
  { split; [discriminate|lia]. }
  destruct (Qle_bool uw 0) eqn:U; [apply Qleb_true in U|apply Qleb_false in U].
  { split; [discriminate|intros (_ & H & _); lra]. }
  destruct (Qle_bool E 0) eqn:V; [apply Qleb_true in V|apply Qleb_false in V].
  { split; [discriminate|intros (_ & _ & H & _); lra]. }
  destruct (Qle_bool nu (-1)) eqn:W; [apply Qleb_true in W|apply Qleb_false in W]; cbn [orb].
  { split; [discriminate|intros (_ & _ & _ & H & _); lra]. }
  destruct (Qltb (1#2) nu) eqn:X; [apply Qltb_true in X|apply Qltb_false in X].
  { split; [discriminate|intros (_ & _ & _ & _ & H & _); lra]. }
  split; [intros H; injection H as <-; repeat split; auto; lia|].
  intros (_ & _ & _ & _ & _ & ->). reflexivity.
Qed.

Lemma material_error : forall name uw E nu e, make_material name uw E nu = Err e -> e = ValueError.
Proof.
  intros name uw E nu e. unfold make_material.
  repeat match goal with |- (if ?b then _ else _) = _ -> _ => destruct b end; congruence.
Qed.

Lemma material_shear : forall name uw E nu m, make_material name uw E nu = Ok m ->
  m_E m == 2 * m_shear m * (1 + m_nu m) /\ 0 < m_shear m /\ m_E m <= 3 * m_shear m.
Proof.
  intros name uw E nu m H. apply material_accepted in H. destruct H as (_ & _ & PE & L & U & ->).
  unfold m_shear. cbn [m_E m_nu].
  assert (D : 0 < 2 + 2 * nu) by lra.
  assert (K : E == 2 * (E / (2 + 2 * nu)) * (1 + nu)) by (field; lra).
  assert (P : 0 < E / (2 + 2 * nu)) by (apply Qlt_shift_div_l; lra).
  split; [exact K|]. split; [exact P|].
  set (G := E / (2 + 2 * nu)) in *. rewrite K. nra.
Qed.

Lemma named_are_valid : make_material "Steel" 78 210000000 (3#10) = Ok steel /\
  make_material "Concrete" 24 30000000 (2#10) = Ok concrete.
Proof. split; reflexivity. Qed.

Lemma pile_material_cases : forall a m, pile_material a = Ok m <->
  a = Given m \/ (a = Named "Steel" /\ m = steel) \/ (a = Named "Concrete" /\ m = concrete).
Proof.
  intros [s|g] m; cbn [pile_material].
  - destruct (String.eqb_spec s "Steel") as [->|N1].
    { split; [intros H; injection H as <-; auto|]. intros [H|[(_ & ->)|(H & _)]]; try discriminate; auto. }
    destruct (String.eqb_spec s "Concrete") as [->|N2].
    { split; [intros H; injection H as <-; auto|]. intros [H|[(H & _)|(_ & ->)]]; try discriminate; auto. }
    split; [discriminate|]. intros [H|[(H & _)|(H & _)]]; congruence.
  - split; [intros H; injection H as <-; auto|]. intros [H|[(H & _)|(H & _)]]; congruence.
Qed.

Lemma pile_is_stiff : forall a m, obtainable a -> pile_material a = Ok m ->
  0 < m_uw m /\ 0 < m_E m /\ 0 < m_shear m /\ m_E m == 2 * m_shear m * (1 + m_nu m).
Proof.
  intros a m O H.
  assert (A : exists name uw E nu, make_material name uw E nu = Ok m).
  { apply pile_material_cases in H. destruct H as [->|[(_ & ->)|(_ & ->)]].
    - exact O.
    - do 4 eexists. apply named_are_valid.
    - do 4 eexists. apply (proj2 named_are_valid). }
  destruct A as (name & uw & E & nu & A).
  destruct (material_shear _ _ _ _ _ A) as (K & P & _).
  apply material_accepted in A. destruct A as (_ & U & PE & _ & _ & ->).
  repeat split; auto.
Qed.

(** ** Pile.data *)

Lemma data_cons : forall s t, pile_data (s :: t) = row_of s (s_top s) :: row_of s (s_bottom s) :: pile_data t.
Proof. reflexivity. Qed.

Lemma data_length : forall p, length (pile_data p) = (2 * length p)%nat.
Proof. induction p as [|s t IH]; [reflexivity|]. rewrite data_cons. cbn [length]. lia. Qed.

Lemma data_reads : forall p z r, proper p -> connected p = true -> reads_at (pile_data p) z r ->
  exists s, In s p /\ occupies s z /\ describes r s.
Proof.
  induction p as [|s t IH]; intros z r P C (i & r' & H1 & H2 & L1 & L2).
  - destruct i; discriminate.
  - rewrite data_cons in H1, H2. destruct i as [|[|i]].
    + cbn [nth_error] in H1, H2. injection H1 as <-. injection H2 as <-.
      exists s. split; [left; auto|]. split; [split; assumption|]. repeat split.
    + cbn [nth_error] in H1, H2. injection H1 as <-. destruct t as [|s' t]; [discriminate|].
      injection H2 as <-. apply connected_cons in C. destruct C as [E _].
      cbn [row_of r_z] in L1, L2. lra.
    + destruct (IH z r) as (x & Hx & O & D).
      * intros y Hy. apply P. right; auto.
      * destruct t; auto. apply connected_cons in C. apply C.
      * exists i, r'. repeat split; auto.
      * exists x. split; [right; auto|]. auto.
Qed.

Lemma data_has : forall p z s, In s p -> occupies s z -> exists r, reads_at (pile_data p) z r.
Proof.
  induction p as [|s0 t IH]; intros z s H O; [destruct H|]. rewrite data_cons.
  destruct H as [->|H].
  - exists (row_of s (s_top s)), 0%nat, (row_of s (s_bottom s)). destruct O. repeat split; auto.
  - destruct (IH z s H O) as (r & i & r' & A & B & L). exists r, (S (S i)), r'. repeat split; auto; apply L.
Qed.

Lemma one_occupant : forall p z s s', proper p -> connected p = true -> In s p -> In s' p ->
  occupies s z -> occupies s' z -> s = s'.
Proof.
  induction p as [|s0 t IH]; intros z s s' P C H H' [O1 O2] [O1' O2']; [destruct H|].
  pose proof (connected_below t s0 P C) as B.
  destruct H as [->|H], H' as [->|H']; auto.
  - specialize (B s' H'). lra.
  - specialize (B s H). lra.
  - eapply IH; eauto; try (split; eauto).
    + intros y Hy. apply P. right; auto.
    + destruct t; auto. apply connected_cons in C. apply C.
Qed.

Lemma data_describes : forall l p z s, proper l -> make_pile l = Ok p -> In s l -> occupies s z ->
  (exists r, reads_at (pile_data p) z r) /\ forall r, reads_at (pile_data p) z r -> describes r s.
Proof.
  intros l p z s P M H O.
  destruct (pile_fills l p P M) as (PM & _).
  apply make_pile_ok in M. destruct M as (_ & _ & C).
  assert (H' : In s p) by (eapply Permutation_in; eauto).
  pose proof (proper_perm _ _ PM P) as P'.
  split; [eapply data_has; eauto|].
  intros r R. destruct (data_reads p z r P' C R) as (s' & Hs' & O' & D).
  rewrite (one_occupant p z s s' P' C H' Hs' O O'). exact D.
Qed.

Lemma data_nothing_else : forall l p z r, proper l -> make_pile l = Ok p -> reads_at (pile_data p) z r ->
  exists s, In s l /\ occupies s z /\ describes r s.
Proof.
  intros l p z r P M R.
  destruct (pile_fills l p P M) as (PM & _).
  apply make_pile_ok in M. destruct M as (_ & _ & C).
  destruct (data_reads p z r (proper_perm _ _ PM P) C R) as (s & Hs & OD).
  exists s. split; auto. eapply Permutation_in; [apply Permutation_sym|]; eauto.
Qed.

Lemma data_integral : forall f g p, (forall s z, f (row_of s z) = g s) -> connected p = true ->
  integral f (pile_data p) == Qsum (map (fun s => g s * (s_top s - s_bottom s)) p).
Proof.
  intros f g p F. induction p as [|s t IH]; intros C; [reflexivity|].
  destruct t as [|s' t].
  - cbn [pile_data flat_map app integral map Qsum fold_right row_of r_z]. rewrite F. ring.
  - apply connected_cons in C. destruct C as [E C]. specialize (IH C).
    rewrite data_cons. rewrite data_cons in IH |- *.
    change (f (row_of s (s_top s)) * (s_top s - s_bottom s)
      + (f (row_of s (s_bottom s)) * (s_bottom s - s_top s') + integral f (row_of s' (s_top s') :: row_of s' (s_bottom s') :: pile_data t))
      == g s * (s_top s - s_bottom s) + Qsum (map (fun s => g s * (s_top s - s_bottom s)) (s' :: t))).
    rewrite IH, !F. rewrite E. ring.
Qed.

Lemma data_volume : forall l p, make_pile l = Ok p ->
  integral r_area (pile_data p) == pile_volume p /\ integral r_entrapped (pile_data p) == inner_volume p.
Proof.
  intros l p M. apply make_pile_ok in M. destruct M as (_ & _ & C). split.
  - exact (data_integral r_area s_area p (fun s z => eq_refl) C).
  - exact (data_integral r_entrapped s_entrapped p (fun s z => eq_refl) C).
Qed.

Lemma gross_volume : forall l p, (forall s, In s l -> exists top bottom d t, circular top bottom d t = Ok s) ->
  make_pile l = Ok p ->
  pile_volume p + inner_volume p == Qsum (map (fun s => s_width s * s_width s * mpi / 4 * (s_top s - s_bottom s)) l).
Proof.
  intros l p CI M. pose proof (circular_sections_proper l CI) as P.
  destruct (pile_fills l p P M) as (PM & _).
  rewrite (Qsum_perm _ (fun s => s_width s * s_width s * mpi / 4 * (s_top s - s_bottom s)) l p PM).
  assert (CP : forall s, In s p -> s_area s + s_entrapped s == s_width s * s_width s * mpi / 4).
  { intros s Hs. destruct (CI s) as (a & b & d & t & E).
    - eapply Permutation_in; [apply Permutation_sym|]; eauto.
    - rewrite (circular_area_balance _ _ _ _ _ E). apply circular_ok in E. destruct E as (_ & _ & _ & ->).
      cbn [s_width s_footprint]. unfold circ_footprint. change (d^2) with (d * d). reflexivity. }
  clear - CP. unfold pile_volume, inner_volume. induction p as [|s t IH]; [reflexivity|].
  cbn [map Qsum fold_right]. fold (Qsum (map (fun s => s_area s * s_length s) t)).
  fold (Qsum (map (fun s => s_entrapped s * (s_top s - s_bottom s)) t)).
  fold (Qsum (map (fun s => s_width s * s_width s * mpi / 4 * (s_top s - s_bottom s)) t)).
  rewrite <- IH by (intros x Hx; apply CP; right; auto).
  rewrite <- (CP s (or_introl eq_refl)). unfold s_length. ring.
Qed.

(** ** Shape and printing *)

Lemma shape_iff : forall p, shape p = Some "Circular"%string <-> forall x, In x p -> exists w, ps_wall x = Some w.
Proof.
  intros p. unfold shape. destruct (forallb is_circular p) eqn:E.
  - split; auto. intros _ x Hx. rewrite forallb_forall in E. specialize (E x Hx). unfold is_circular in E.
    destruct (ps_wall x); eauto. discriminate.
  - split; [discriminate|]. intros H. exfalso. assert (T : forallb is_circular p = true).
    { apply forallb_forall. intros x Hx. unfold is_circular. destruct (H x Hx) as [w ->]. reflexivity. }
    congruence.
Qed.

Lemma shape_never_undefined : forall p, shape p = Some "Circular"%string \/ shape p = None.
Proof. intros p. unfold shape. destruct (forallb is_circular p); auto. Qed.

Lemma str_circular_ok : forall p, (forall x, In x p -> exists w, ps_wall x = Some w) ->
  str_circular p = Ok (flat_map (fun x => printed_pair x (ps_wall x)) p).
Proof.
  induction p as [|x t IH]; intros H; [reflexivity|]. cbn [str_circular flat_map].
  unfold thickness. destruct (H x (or_introl eq_refl)) as [w ->]. cbn [bind].
  rewrite IH by (intros y Hy; apply H; right; auto). reflexivity.
Qed.

Lemma str_always : forall p, exists t, str_pile p = Ok t /\
  map (fun x => (pr_z x, pr_width x, pr_area x, pr_I x)) t =
  map (fun r => (r_z r, r_width r, r_area r, r_I r)) (pile_data (map ps_sec p)).
Proof.
  intros p.
  assert (K : forall w, map (fun x => (pr_z x, pr_width x, pr_area x, pr_I x)) (flat_map (fun x => printed_pair x (w x)) p)
            = map (fun r => (r_z r, r_width r, r_area r, r_I r)) (pile_data (map ps_sec p))).
  { intros w. induction p as [|x t IH]; [reflexivity|]. cbn [map flat_map]. rewrite data_cons, map_app, IH. reflexivity. }
  unfold str_pile, shape. destruct (forallb is_circular p) eqn:E.
  - change (String.eqb "Circular" "Circular") with true. cbn iota.
    assert (H : forall x, In x p -> exists w, ps_wall x = Some w).
    { apply shape_iff. unfold shape. rewrite E. reflexivity. }
    rewrite (str_circular_ok p H). eexists. split; [reflexivity|]. apply K.
  - eexists. split; [reflexivity|]. apply (K (fun _ => None)).
Qed.

Lemma str_walls : forall p t, shape p = Some "Circular"%string -> str_pile p = Ok t ->
  map pr_wall t = flat_map (fun x => [ps_wall x; ps_wall x]) p.
Proof.
  intros p t SH. unfold str_pile. rewrite SH. change (String.eqb "Circular" "Circular") with true. cbn iota.
  rewrite (str_circular_ok p (proj1 (shape_iff p) SH)). intros H. injection H as <-.
  clear. induction p as [|x t IH]; [reflexivity|]. cbn [flat_map map]. rewrite map_app, IH. reflexivity.
Qed.

Lemma txt_fails : forall p, txt_pile p = Err AttributeError.
Proof. reflexivity. Qed.

(** ** Validation helpers *)

Lemma str_one_of_iff : forall v acc, str_must_be_one_of v acc = Ok tt <-> exists s, v = PyStr s /\ In s acc.
Proof.
  intros v acc. destruct v as [b|n|q|s|]; cbn; try (split; [discriminate|intros (s' & H & _); discriminate]).
  destruct (existsb (String.eqb s) acc) eqn:E.
  - split; auto. intros _. exists s. split; auto. apply existsb_exists in E. destruct E as (x & Hx & E).
    apply String.eqb_eq in E. congruence.
  - split; [discriminate|]. intros (s' & H & Hs). injection H as <-.
    assert (T : existsb (String.eqb s) acc = true) by (apply existsb_exists; exists s; split; auto; apply String.eqb_refl).
    congruence.
Qed.

Lemma numbers_iff : forall l, numbers_in_list l = Ok tt <-> forall v, In v l -> is_number v = true.
Proof.
  induction l as [|v t IH]; cbn; [split; auto; intros _ x []|].
  destruct (is_number v) eqn:E.
  - rewrite IH. split; [intros H x [<-|Hx]; auto|]. intros H x Hx. apply H. right; auto.
  - split; [discriminate|]. intros H. rewrite (H v (or_introl eq_refl)) in E. discriminate.
Qed.

(** ** Warnings *)

Lemma check_iff : forall a, check_springs a = true <-> suspicious a.
Proof.
  intros a. unfold check_springs, suspicious. rewrite orb_true_iff, !existsb_exists. split.
  - intros [(x & Hx & E)|(x & Hx & E)]; exists x; split; auto; destruct x as [q|]; try discriminate; auto.
    right. exists q. split; auto. apply Qltb_true. exact E.
  - intros (x & Hx & [->|(q & -> & L)]).
    + left. exists None. auto.
    + right. exists (Some q). split; auto. apply Qltb_true. exact L.
Qed.

Lemma warned : forall (b1 b2 b3 b4 : bool) w, In w ((if b1 then [WarnPy] else []) ++ (if b2 then [WarnMt] else [])
  ++ (if b3 then [WarnHb] else []) ++ (if b4 then [WarnMb] else [])) <->
  match w with WarnPy => b1 | WarnMt => b2 | WarnHb => b3 | WarnMb => b4 end = true.
Proof.
  intros b1 b2 b3 b4 w. rewrite !in_app_iff.
  destruct b1, b2, b3, b4, w; cbn [In]; intuition (try congruence; try discriminate; auto).
Qed.

Lemma warnings_iff : forall a w, In w (fst (finish a)) <->
  suspicious (match w with WarnPy => a_py a | WarnMt => a_mt a | WarnHb => a_Hb a | WarnMb => a_Mb a end).
Proof.
  intros a w. cbn [finish fst]. rewrite warned. cbn [a_py a_mt a_Hb a_Mb]. destruct w; apply check_iff.
Qed.

Lemma turned : forall a i, nth_error (turn a) i = option_map (option_map (fun q => q * (-1))) (nth_error a i).
Proof. intros a. unfold turn. induction a as [|x t IH]; intros [|i]; cbn; auto. Qed.

Lemma turn_sound : forall a x, sound a -> In x (turn a) -> exists q, x = Some q /\ q <= 0.
Proof.
  intros a x H Hx. unfold turn in Hx. apply in_map_iff in Hx. destruct Hx as (y & <- & Hy).
  destruct (H y Hy) as (q & -> & L). exists (q * (-1)). split; [reflexivity|]. lra.
Qed.

(** ** Node numbers *)

Lemma combine_pairs : forall (nodes : list Q) k i z,
  In (i, z) (combine (flat_map (fun i => [i; i]) (seq k (length nodes))) (flat_map (fun z => [z; z]) nodes)) <->
  (k <= i)%nat /\ nth_error nodes (i - k) = Some z.
Proof.
  induction nodes as [|h t IH]; intros k i z; cbn [length seq flat_map app combine In].
  - split; [intros []|]. intros (_ & H). destruct (i - k)%nat; discriminate.
  - rewrite IH. split.
    + intros [H|[H|(L & H)]].
      * injection H as <- <-. rewrite Nat.sub_diag. auto.
      * injection H as <- <-. rewrite Nat.sub_diag. auto.
      * split; [lia|]. replace (i - k)%nat with (S (i - S k)) by lia. exact H.
    + intros (L & H). destruct (Nat.eq_dec i k) as [->|N].
      * left. rewrite Nat.sub_diag in H. cbn in H. congruence.
      * right. right. split; [lia|]. replace (i - k)%nat with (S (i - S k)) in H by lia. exact H.
Qed.

Lemma numbered_iff : forall n nodes i z, length nodes = S n ->
  (In (i, z) (numbered n nodes) <-> nth_error nodes i = Some z).
Proof.
  intros n nodes i z L. unfold numbered. rewrite <- L, combine_pairs, Nat.sub_0_r. split; [intros []; auto|].
  intros H; split; auto. lia.
Qed.

Lemma base_rows : forall n b ty f d t, base_table n b true ty f d = Some t ->
  exists r1 r2, t = [r1; r2] /\ b_z r1 = b /\ b_z r2 = b /\ b_val r1 = f /\ b_val r2 = d.
Proof. intros n b ty f d t H. injection H as <-. do 2 eexists. split; [reflexivity|]. auto. Qed.

Lemma base_number : forall n b ty f d t r nodes, length nodes = S n -> base_table n b true ty f d = Some t -> In r t ->
  ~ exists z, In (b_node r, z) (numbered n nodes).
Proof.
  intros n b ty f d t r nodes L H Hr (z & C). apply (numbered_iff n nodes _ _ L) in C.
  injection H as <-. assert (E : b_node r = (n + 1)%nat) by (destruct Hr as [<-|[<-|[]]]; reflexivity).
  rewrite E in C. assert (nth_error nodes (n + 1) = None) by (apply nth_error_None; lia). congruence.
Qed.

(** ** Elevations *)

Lemma top_is_highest : forall t g w b, let m := model_top t (Some (g, w, b)) in
  t <= m /\ g <= m /\ w <= m /\ (m == t \/ m == g \/ m == w).
Proof.
  intros t g w b m. subst m. cbn [model_top].
  pose proof (Q.le_max_l t g). pose proof (Q.le_max_r t g).
  pose proof (Q.le_max_l (Qmax t g) w). pose proof (Q.le_max_r (Qmax t g) w).
  repeat split; try lra.
  destruct (Q.max_dec (Qmax t g) w) as [E|E]; [|auto].
  destruct (Q.max_dec t g) as [E'|E']; [left|right; left]; lra.
Qed.

Lemma bottom_is_soil : forall len c pb t g w b, accept_model len c pb (Some b) = Ok tt -> b <= g ->
  model_bottom pb (Some (g, w, b)) == b /\ b <= pb /\ b <= model_top t (Some (g, w, b)).
Proof.
  intros len c pb t g w b A N.
  assert (L : b <= pb).
  { revert A. unfold accept_model. destruct (Qltb c (1#100)); [discriminate|]. destruct (negb _); [discriminate|].
    destruct (Qltb pb b) eqn:E; [discriminate|]. intros _. apply Qltb_false in E. exact E. }
  split; [exact (Q.min_r pb b L)|]. split; [exact L|].
  destruct (top_is_highest t g w b) as (_ & H & _). lra.
Qed.

Lemma embedment_bounds : forall len c pb g w b e, accept_model len c pb (Some b) = Ok tt ->
  embedment pb (Some (g, w, b)) = Some e -> e <= g - b /\ (0 < e <-> pb < g).
Proof.
  intros len c pb g w b e A H. injection H as <-.
  revert A. unfold accept_model. destruct (Qltb c (1#100)); [discriminate|]. destruct (negb _); [discriminate|].
  destruct (Qltb pb b) eqn:E; [discriminate|]. intros _. apply Qltb_false in E. lra.
Qed.

Lemma primary_within : forall l p t b g w sb ls x y, proper l -> make_pile l = Ok p ->
  pile_top p = Ok t -> pile_bottom p = Ok b -> (forall k, In k ls -> l_top k <= g /\ l_bottom k <= g) ->
  (forall v, In v x -> b <= v /\ v <= model_top t (Some (g, w, sb))) ->
  contains (primary p b (Some ls) x) y -> b <= y /\ y <= model_top t (Some (g, w, sb)).
Proof.
  intros l p t b g w sb ls x y P M T B SO X Hy.
  destruct (top_is_highest t g w sb) as (H1 & H2 & _).
  apply primary_contains in Hy. destruct Hy as [Hy|[Hy|Hy]].
  - apply pile_elevations_contains in Hy. destruct Hy as (s & Hs & V).
    pose proof (pile_range l p t b P M T B s Hs).
    assert (s_bottom s < s_top s).
    { destruct (pile_fills l p P M) as (PM & _). apply P. eapply Permutation_in; [apply Permutation_sym; eauto|auto]. }
    destruct V; lra.
  - apply soil_elevations_contains in Hy. destruct Hy as [(k & Hk & V & L)|(E & _)].
    + destruct (SO k Hk). destruct V; lra.
    + destruct (pile_fills l p P M) as (_ & t' & b' & T' & B' & L & _).
      assert (t' = t) by congruence. assert (b' = b) by congruence. subst. lra.
  - destruct Hy as (z & Hz & E). destruct (X z Hz). lra.
Qed.

Lemma mesh_within : forall l p t b g w sb ls x c m z, proper l -> make_pile l = Ok p ->
  pile_top p = Ok t -> pile_bottom p = Ok b -> (forall k, In k ls -> l_top k <= g /\ l_bottom k <= g) ->
  (forall v, In v x -> b <= v /\ v <= model_top t (Some (g, w, sb))) -> 0 < c ->
  mesh p b (Some ls) x c = Some m -> In z m ->
  b <= z /\ z <= model_top t (Some (g, w, sb)).
Proof.
  intros l p t b g w sb ls x c m z P M T B SO X C MM Hz.
  assert (N : p <> []) by (intros ->; discriminate).
  pose proof (fun y => primary_within l p t b g w sb ls x y P M T B SO X) as R.
  set (pr := primary p b (Some ls) x) in *.
  destruct (mesh_ends p b (Some ls) x c m C MM N) as (NE & HI & LO).
  pose proof (mesh_descending _ _ _ _ _ _ MM) as D. apply desc_nth in D.
  destruct (pile_bottom_in p b B) as (s & Hs & Eb).
  assert (CB : contains pr b).
  { apply primary_contains. left. apply pile_elevations_contains. exists s. split; auto. right. rewrite Eb. reflexivity. }
  pose proof (primary_desc p b (Some ls) x) as PD. fold pr in PD.
  destruct pr as [|a r] eqn:EP; [destruct (contains_nil _ CB)|]. fold pr in HI, LO. rewrite EP in HI, LO.
  destruct m as [|h m']; [congruence|].
  assert (CA : contains (a :: r) a) by (apply contains_In; left; auto).
  specialize (HI a 0 CA (fun y Hy => desc_head_max a r y PD Hy)). cbn [hd] in HI.
  specialize (LO b 0 CB (fun y Hy => proj1 (R y Hy))).
  pose proof (desc_head_max h m' z D (contains_In _ _ Hz)).
  pose proof (desc_last_min (h :: m') 0 z D (contains_In _ _ Hz)).
  destruct (R a CA). lra.
Qed.

(** ** Model.create *)

Lemma create_without_x2mesh : forall k, k_x2mesh k = None -> k_plugging k = None -> create k = Err ValueError.
Proof. intros k H H'. unfold create. rewrite H, H'. reflexivity. Qed.

Lemma model_accepts : forall k, (forall c, k_coarseness k = Some c -> 1#100 <= c) -> exists s, model k = Ok s.
Proof.
  intros k H. unfold model, model_fields. destruct (k_coarseness k) as [c|]; cbn [or_else].
  - destruct (Qltb c (1#100)) eqn:E; [|eauto]. apply Qltb_true in E. specialize (H c eq_refl). lra.
  - change (Qltb (1#2) (1#100)) with false. eauto.
Qed.

Lemma create_same_iff : forall k x, k_x2mesh k = Some x -> k_plugging k = None ->
  (forall c, k_coarseness k = Some c -> 1#100 <= c) ->
  (create k = model k <-> k_axial k <> None /\ k_base_axial k <> None).
Proof.
  intros k x X PL C. unfold create, model. rewrite X, PL. unfold model_fields. cbn [or_else].
  assert (E : Qltb (or_else (k_coarseness k) (1#2)) (1#100) = false).
  { destruct (k_coarseness k) as [c|]; cbn [or_else]; [|reflexivity]. apply Qltb_false. apply C. reflexivity. }
  rewrite E. destruct (k_axial k) as [a|], (k_base_axial k) as [b|]; cbn [or_else].
  - split; [intros _; split; discriminate|reflexivity].
  - split; [congruence|]. intros (_ & H); congruence.
  - split; [congruence|]. intros (H & _); congruence.
  - split; [congruence|]. intros (H & _); congruence.
Qed.
