From Coq Require Import List Bool Arith ZArith QArith Qabs Qminmax Lia Lqa Sorted Permutation.
From Verif Require Import Base PileModel PileSpec PileProofs MeshModel MeshSpec MeshProofs StressModel StressSpec.
Import ListNotations.
Local Open Scope Q_scope.

(** ** merge_asof *)

Lemma asof_spec : forall A (rows : list (Q * A)) z a,
  StronglySorted (fun x y => fst x <= fst y) rows -> asof_forward rows z = Some a ->
  exists k, In (k, a) rows /\ z <= k /\ forall k' a', In (k', a') rows -> z <= k' -> k <= k'.
Proof.
  intros A rows z a SS. induction SS as [|[k b] t SS IH F]; simpl; intros H; [discriminate|].
  destruct (Qle_bool z k) eqn:E.
  - apply Qleb_true in E. inversion H; subst. exists k. split; auto. split; auto.
    intros k' a' [C|C] L; [inversion C; subst; lra|].
    rewrite Forall_forall in F. apply (F _ C).
  - apply Qleb_false in E. destruct (IH H) as (k0 & I0 & L0 & M0). exists k0. split; auto. split; auto.
    intros k' a' [C|C] L; [inversion C; subst; lra|]. eauto.
Qed.

Lemma asof_some : forall A (rows : list (Q * A)) z k a, In (k, a) rows -> z <= k ->
  exists b, asof_forward rows z = Some b.
Proof.
  intros A rows z k a. induction rows as [|[k0 b] t IH]; intros I L; [destruct I|]. simpl.
  destruct (Qle_bool z k0) eqn:E; [eauto|]. destruct I as [C|C]; auto.
  inversion C; subst. apply Qleb_false in E. lra.
Qed.

Lemma asof_none : forall A (rows : list (Q * A)) z, (forall k a, In (k, a) rows -> k < z) -> asof_forward rows z = None.
Proof.
  intros A rows z. induction rows as [|[k0 b] t IH]; intros H; auto. simpl.
  destruct (Qle_bool z k0) eqn:E.
  - apply Qleb_true in E. specialize (H k0 b (or_introl eq_refl)). lra.
  - apply IH. intros; eapply H; right; eauto.
Qed.

Lemma sort_by_ascending : forall A (l : list (Q * A)), ascending_of (sort_by fst l) l.
Proof.
  intros A l. split; [apply Permutation_sym, sort_perm|].
  exact (sort_sorted fst l).
Qed.

Lemma connected_disjoint : forall p, proper p -> connected p = true -> forall s s', In s p -> In s' p ->
  s = s' \/ s_top s' <= s_bottom s \/ s_top s <= s_bottom s'.
Proof.
  induction p as [|h t IH]; intros P C s s' Hs Hs'; [destruct Hs|].
  assert (Pt : proper t) by (intros x Hx; apply P; right; auto).
  assert (Ct : connected t = true).
  { destruct t; auto. apply connected_cons in C. tauto. }
  destruct Hs as [<-|Hs], Hs' as [<-|Hs'].
  - auto.
  - right; left. eapply connected_below; eauto.
  - right; right. eapply connected_below; eauto.
  - apply IH; auto.
Qed.

Lemma data_rows_in : forall p k s, In (k, s) (data_rows p) <-> In s p /\ (k = s_top s \/ k = s_bottom s).
Proof.
  intros p k s. unfold data_rows. rewrite in_flat_map. split.
  - intros (s0 & H & [E|[E|[]]]); inversion E; subst; auto.
  - intros (H & [->| ->]); exists s; simpl; auto.
Qed.

Lemma accepted_facts : forall l p, proper l -> make_pile l = Ok p -> proper p /\ connected p = true /\ p <> [].
Proof.
  intros l p P M. destruct (pile_fills l p P M) as (PM & _). apply make_pile_ok in M. destruct M as (N & E & C).
  split; [eapply proper_perm; eauto|]. split; auto. intros ->. apply Permutation_sym, Permutation_nil in PM. auto.
Qed.

Lemma element_row : forall l p rows s z, proper l -> make_pile l = Ok p ->
  ascending_of rows (data_rows p) -> In s p -> s_bottom s < z -> z <= s_top s ->
  exists s', asof_forward rows z = Some s' /\ In s' p /\ (s' = s \/ s_bottom s' == s_top s).
Proof.
  intros l p rows s z P M [PR SR] Hs L U.
  destruct (accepted_facts l p P M) as (Pp & C & _).
  assert (IT : In (s_top s, s) rows).
  { eapply Permutation_in; [apply Permutation_sym; eauto|]. apply data_rows_in; auto. }
  destruct (asof_some _ rows z _ _ IT U) as [s' A]. exists s'. split; auto.
  destruct (asof_spec _ _ _ _ SR A) as (k & I & LK & MK).
  specialize (MK _ _ IT U).
  apply (Permutation_in _ PR) in I. apply data_rows_in in I. destruct I as [I K]. split; auto.
  pose proof (Pp _ I). pose proof (Pp _ Hs).
  destruct (connected_disjoint p Pp C s s' Hs I) as [->|[D|D]]; auto.
  - exfalso. destruct K; subst; lra.
  - right. destruct K; subst; lra.
Qed.

Lemma top_section_row : forall l p rows s t z, proper l -> make_pile l = Ok p -> p = s :: t ->
  ascending_of rows (data_rows p) -> s_bottom s < z -> z <= s_top s -> asof_forward rows z = Some s.
Proof.
  intros l p rows s t z P M E R L U.
  destruct (element_row l p rows s z P M R) as (s' & A & I & [->|B]); auto; [subst; left; auto|].
  exfalso. destruct (accepted_facts l p P M) as (Pp & C & _). subst p.
  pose proof (Pp s (or_introl eq_refl)). destruct I as [<-|I]; [lra|].
  pose proof (connected_below t s Pp C s' I). pose proof (Pp s' (or_intror I)). lra.
Qed.

Lemma property_if_equal : forall A (f : section -> A) l p rows s e, proper l -> make_pile l = Ok p ->
  ascending_of rows (data_rows p) -> In s p -> in_section s e ->
  (forall s', In s' p -> s_bottom s' == s_top s -> f s' = f s) ->
  element_property f rows e = Some (f s).
Proof.
  intros A f l p rows s e P M R Hs (L & X & U) EQ. unfold element_property.
  destruct (element_row l p rows s (fst e) P M R Hs ltac:(lra) U) as (s' & -> & I & [->|B]); simpl; auto.
  rewrite EQ; auto.
Qed.

(** the stable order *)
Lemma asof_insert_hit : forall A (x : Q * A) R z, z <= fst x ->
  (forall r, In r R -> z <= fst r -> fst x <= fst r) -> asof_forward (insert_by fst x R) z = Some (snd x).
Proof.
  intros A [k a] R z L H. simpl in *. induction R as [|[k0 b] t IH]; simpl.
  - apply Qleb_true in L. rewrite L. auto.
  - destruct (Qle_bool k k0) eqn:E.
    + simpl. apply Qleb_true in L. rewrite L. auto.
    + apply Qleb_false in E. simpl. destruct (Qle_bool z k0) eqn:E2.
      * apply Qleb_true in E2. specialize (H (k0, b) (or_introl eq_refl) E2). simpl in H. lra.
      * apply IH. intros r Hr. apply H. right; auto.
Qed.

Lemma asof_insert_pass : forall A (x : Q * A) R z r, StronglySorted (fun x y => fst x <= fst y) R ->
  In r R -> z <= fst r -> fst r < fst x -> asof_forward (insert_by fst x R) z = asof_forward R z.
Proof.
  intros A [k a] R z r SS. revert r. induction SS as [|[k0 b] t SS IH F]; intros r I L G; [destruct I|].
  simpl in *. destruct (Qle_bool k k0) eqn:E.
  - apply Qleb_true in E. exfalso. destruct I as [<-|I]; [simpl in *; lra|].
    rewrite Forall_forall in F. specialize (F _ I). simpl in F. lra.
  - simpl. destruct (Qle_bool z k0) eqn:E2; auto. apply Qleb_false in E2.
    destruct I as [<-|I]; [simpl in *; lra|]. eapply IH; eauto.
Qed.

Lemma stable_gives_above : forall p i a s z, proper p -> connected p = true ->
  nth_error p i = Some a -> nth_error p (S i) = Some s -> s_bottom s < z -> z <= s_top s ->
  asof_forward (stable_rows p) z = Some a.
Proof.
  induction p as [|h t IH]; intros i a s z P C Ha Hs L U; [destruct i; discriminate|].
  assert (Pt : proper t) by (intros x Hx; apply P; right; auto).
  assert (Ct : connected t = true) by (destruct t; auto; apply connected_cons in C; tauto).
  simpl in Hs. assert (Is : In s t) by (eapply nth_error_In; eauto).
  pose proof (connected_below t h P C) as BL.
  assert (Ph : s_bottom h < s_top h) by (apply P; left; auto).
  pose proof (BL s Is) as Bs.
  change (stable_rows (h :: t)) with (insert_by fst (s_top h, h) (insert_by fst (s_bottom h, h) (stable_rows t))).
  assert (S0 : StronglySorted (fun x y : Q * section => fst x <= fst y) (stable_rows t))
    by (apply sort_by_ascending).
  assert (S1 : StronglySorted (fun x y : Q * section => fst x <= fst y) (insert_by fst (s_bottom h, h) (stable_rows t))).
  { apply (insert_sorted fst (s_bottom h, h) (stable_rows t)). exact S0. }
  assert (IR : forall r, In r (stable_rows t) <-> In r (data_rows t)).
  { intros r. split; apply Permutation_in; [apply Permutation_sym|]; apply sort_perm. }
  assert (I1 : In (s_bottom h, h) (insert_by fst (s_bottom h, h) (stable_rows t))).
  { eapply Permutation_in; [apply insert_perm|]. left; auto. }
  rewrite (asof_insert_pass _ _ _ _ _ S1 I1); simpl; [|lra|lra].
  destruct i as [|i].
  - simpl in Ha. inversion Ha; subst a. destruct t as [|s0 t]; [discriminate|].
    simpl in Hs. inversion Hs; subst s0. apply connected_cons in C. destruct C as [E C].
    change (Some h) with (Some (snd (s_bottom h, h))). apply asof_insert_hit; simpl; [lra|].
    intros [k s'] Hr K. apply IR, data_rows_in in Hr. cbn [fst] in *. destruct Hr as [I' K'].
    destruct I' as [<-|I'].
    + destruct K'; subst; lra.
    + pose proof (connected_below t s Pt Ct s' I'). pose proof (Pt s' (or_intror I')). destruct K'; subst; lra.
  - simpl in Ha. assert (Ia : In a t) by (eapply nth_error_In; eauto).
    assert (IS : In (s_top s, s) (stable_rows t)) by (apply IR, data_rows_in; auto).
    assert (LT : s_top s < s_bottom h).
    { destruct t as [|s0 t]; [discriminate|]. apply connected_cons in C. destruct C as [E C].
      simpl in Hs. assert (Is' : In s t) by (eapply nth_error_In; eauto).
      pose proof (connected_below t s0 Pt Ct s Is'). pose proof (Pt s0 (or_introl eq_refl)). lra. }
    rewrite (asof_insert_pass _ _ _ _ _ S0 IS); simpl; [|lra|lra].
    eapply IH; eauto.
Qed.

(** ** parameter2elements *)

Definition lookup {A : Type} (objs : list (Q * Q * A)) (e : Q * Q) (d : option A) : option A :=
  fold_left (fun acc o => if inside (fst (fst o)) (snd (fst o)) e then Some (snd o) else acc) objs d.

Lemma p2e_map : forall A (objs : list (Q * Q * A)) elems,
  parameter2elements objs elems = map (fun e => lookup objs e None) elems.
Proof.
  intros A objs elems. unfold parameter2elements.
  assert (G : forall col, length col = length elems ->
    fold_left (fun col o => map (fun pe => if inside (fst (fst o)) (snd (fst o)) (snd pe) then Some (snd o) else fst pe)
       (combine col elems)) objs col = map (fun ce => lookup objs (snd ce) (fst ce)) (combine col elems)).
  { induction objs as [|o objs IH]; intros col LE; simpl.
    - clear - LE. revert elems LE. induction col; intros [|e elems] LE; simpl in *; try discriminate; auto.
      f_equal. apply IHcol. lia.
    - rewrite IH by (rewrite map_length, combine_length; lia).
      clear - LE. revert elems LE. induction col as [|c col IH]; intros [|e elems] LE; simpl in *; try discriminate; auto.
      f_equal. apply IH. lia. }
  rewrite G by (rewrite map_length; auto). clear G.
  induction elems; simpl; auto. f_equal. auto.
Qed.

Lemma lookup_none : forall A (objs : list (Q * Q * A)) e,
  (forall t b v, In (t, b, v) objs -> ~ (fst e <= t /\ b <= snd e)) -> lookup objs e None = None.
Proof.
  intros A objs e. unfold lookup. induction objs as [|[[t b] v] objs IH]; intros H; auto. simpl.
  destruct (inside t b e) eqn:E.
  - exfalso. apply (H t b v (or_introl eq_refl)). unfold inside in E. apply andb_true_iff in E.
    rewrite !Qleb_true in E. exact E.
  - apply IH. intros; eapply H; right; eauto.
Qed.

Lemma lookup_app : forall A (o1 o2 : list (Q * Q * A)) e d, lookup (o1 ++ o2) e d = lookup o2 e (lookup o1 e d).
Proof. intros. unfold lookup. apply fold_left_app. Qed.

Lemma lookup_last : forall A (o1 o2 : list (Q * Q * A)) e t b v d,
  fst e <= t -> b <= snd e ->
  (forall t' b' v', In (t', b', v') o2 -> ~ (fst e <= t' /\ b' <= snd e)) ->
  lookup (o1 ++ (t, b, v) :: o2) e d = Some v.
Proof.
  intros A o1 o2 e t b v d L1 L2 H. rewrite lookup_app. unfold lookup at 1. simpl.
  assert (E : inside t b e = true) by (unfold inside; rewrite andb_true_iff, !Qleb_true; auto).
  rewrite E. clear E. induction o2 as [|[[t' b'] v'] o2 IH]; auto. simpl.
  destruct (inside t' b' e) eqn:E.
  - exfalso. apply (H t' b' v' (or_introl eq_refl)). unfold inside in E. apply andb_true_iff in E.
    rewrite !Qleb_true in E. exact E.
  - apply IH. intros; eapply H; right; eauto.
Qed.

Lemma section_lookup : forall A (f : section -> A) p s e, proper p -> connected p = true -> In s p ->
  in_section s e -> lookup (section_objs f p) e None = Some (f s).
Proof.
  intros A f p s e P C Hs (L & X & U).
  apply in_split in Hs. destruct Hs as (p1 & p2 & ->). unfold section_objs. rewrite map_app. simpl.
  apply lookup_last; auto. intros t b v H (G1 & G2). apply in_map_iff in H. destruct H as (s' & E & I).
  inversion E; subst t b v. clear E.
  (* s' comes after s: it lies below *)
  assert (Q1 : connected (s :: p2) = true).
  { clear - C. induction p1 as [|h p1 IH]; auto. apply IH. simpl app in C. destruct p1; simpl app in *; apply connected_cons in C; tauto. }
  assert (P1 : proper (s :: p2)) by (intros y Hy; apply P; apply in_or_app; right; auto).
  pose proof (connected_below p2 s P1 Q1 s' I). lra.
Qed.

(** ** Columns of items: integral over elevation *)

Record item : Type := mkItem { i_top : Q; i_bottom : Q; i_dry : Q; i_wet : Q }.

Definition i_dry_above (water z : Q) (i : item) : Q := height (Qmax (Qmax z (i_bottom i)) water) (i_top i).
Definition i_wet_above (water z : Q) (i : item) : Q := height (Qmax z (i_bottom i)) (Qmin (i_top i) water).

Definition integral (items : list item) (water z : Q) : Q :=
  Qsum (map (fun i => i_dry i * i_dry_above water z i + i_wet i * i_wet_above water z i) items).

Fixpoint istack (ground : Q) (d : list item) : Prop :=
  match d with
  | [] => True
  | l :: t => i_top l == ground /\ i_bottom l < i_top l /\ istack (i_bottom l) t
  end.

Fixpoint ibottom (ground : Q) (d : list item) : Q :=
  match d with [] => ground | l :: t => ibottom (i_bottom l) t end.

Ltac qmm := repeat match goal with
  | |- context [Qmax ?a ?b] => let H := fresh in let E := fresh in
      destruct (Q.max_spec a b) as [[H E]|[H E]]; rewrite E in *; clear E
  | |- context [Qmin ?a ?b] => let H := fresh in let E := fresh in
      destruct (Q.min_spec a b) as [[H E]|[H E]]; rewrite E in *; clear E
  end.

Lemma height_pos : forall a b, a <= b -> height a b == b - a.
Proof. intros. unfold height. qmm; lra. Qed.
Lemma height_zero : forall a b, b <= a -> height a b == 0.
Proof. intros. unfold height. qmm; lra. Qed.

Lemma item_above : forall i water z, z <= i_bottom i ->
  i_dry_above water z i == i_dry_above water (i_bottom i) i /\
  i_wet_above water z i == i_wet_above water (i_bottom i) i.
Proof.
  intros i water z H. unfold i_dry_above, i_wet_above.
  assert (E1 : Qmax z (i_bottom i) == i_bottom i) by (apply Q.max_r; auto).
  assert (E2 : Qmax (i_bottom i) (i_bottom i) == i_bottom i) by (apply Q.max_r; lra).
  unfold height. split; rewrite E1, E2; reflexivity.
Qed.

Lemma item_below : forall i water z, i_top i <= z ->
  i_dry_above water z i == 0 /\ i_wet_above water z i == 0.
Proof.
  intros i water z H. unfold i_dry_above, i_wet_above. split; apply height_zero.
  - pose proof (Q.le_max_l z (i_bottom i)). pose proof (Q.le_max_l (Qmax z (i_bottom i)) water). lra.
  - pose proof (Q.le_max_l z (i_bottom i)). pose proof (Q.le_min_l (i_top i) water). lra.
Qed.

Lemma item_step : forall i water u v, i_bottom i <= v -> v < u -> u <= i_top i -> (water <= v \/ u <= water) ->
  i_dry i * i_dry_above water v i + i_wet i * i_wet_above water v i ==
  i_dry i * i_dry_above water u i + i_wet i * i_wet_above water u i +
  (u - v) * (if Qle_bool u water then i_wet i else i_dry i).
Proof.
  intros i water u v B V U W. unfold i_dry_above, i_wet_above.
  assert (Ev : Qmax v (i_bottom i) == v) by (apply Q.max_l; auto).
  assert (Eu : Qmax u (i_bottom i) == u) by (apply Q.max_l; lra).
  unfold height. rewrite Ev, Eu. fold (height (Qmax v water) (i_top i)) (height (Qmax u water) (i_top i))
    (height v (Qmin (i_top i) water)) (height u (Qmin (i_top i) water)).
  destruct (Qle_bool u water) eqn:E; [apply Qleb_true in E|apply Qleb_false in E].
  - assert (E1 : Qmax v water == water) by (apply Q.max_r; lra).
    assert (E2 : Qmax u water == water) by (apply Q.max_r; lra).
    unfold height at 1 3. rewrite E1, E2.
    assert (M : u <= Qmin (i_top i) water) by (apply Q.min_glb; auto).
    rewrite (height_pos u) by auto. rewrite (height_pos v) by lra. ring.
  - assert (Wv : water <= v) by lra.
    assert (E1 : Qmax v water == v) by (apply Q.max_l; lra).
    assert (E2 : Qmax u water == u) by (apply Q.max_l; lra).
    unfold height at 1 3. rewrite E1, E2. fold (height v (i_top i)) (height u (i_top i)).
    assert (M : Qmin (i_top i) water <= v) by (pose proof (Q.le_min_r (i_top i) water); lra).
    rewrite (height_pos u) by auto. rewrite (height_pos v (i_top i)) by lra.
    rewrite (height_zero v) by auto. rewrite (height_zero u) by lra. ring.
Qed.

Lemma istack_below : forall d g i, istack g d -> In i d -> i_top i <= g.
Proof.
  induction d as [|h t IH]; intros g i S I; [destruct I|]. destruct S as (E & L & S).
  destruct I as [<-|I]; [lra|]. specialize (IH _ _ S I). lra.
Qed.

Lemma integral_below : forall d g water z, istack g d -> g <= z -> integral d water z == 0.
Proof.
  induction d as [|h t IH]; intros g water z S G; [reflexivity|]. destruct S as (E & L & S).
  unfold integral in *. simpl. rewrite (IH _ water z S) by lra.
  destruct (item_below h water z) as [-> ->]; [lra|]. ring.
Qed.

Lemma integral_step : forall d g water u v i, istack g d -> In i d ->
  i_bottom i <= v -> v < u -> u <= i_top i -> (water <= v \/ u <= water) ->
  integral d water v == integral d water u + (u - v) * (if Qle_bool u water then i_wet i else i_dry i).
Proof.
  induction d as [|h t IH]; intros g water u v i S I B V U W; [destruct I|].
  destruct S as (E & L & S). destruct I as [<-|I].
  - unfold integral. simpl. fold (integral t water v) (integral t water u).
    rewrite (integral_below t _ water v S) by auto. rewrite (integral_below t _ water u S) by lra.
    rewrite (item_step h water u v) by auto. ring.
  - pose proof (istack_below _ _ _ S I) as T. specialize (IH _ water u v i S I B V U W).
    unfold integral in *. simpl. rewrite IH.
    destruct (item_above h water v) as [-> ->]; [lra|]. destruct (item_above h water u) as [-> ->]; [lra|]. ring.
Qed.

(** the item an element lies in *)
Lemma element_item : forall d g e, istack g d -> snd e < fst e -> fst e <= g -> ibottom g d <= snd e ->
  (forall i, In i d -> i_bottom i <= snd e \/ fst e <= i_bottom i) -> 
  exists i, In i d /\ i_bottom i <= snd e /\ fst e <= i_top i.
Proof.
  induction d as [|h t IH]; intros g e S P G B R; simpl in *; [lra|].
  destruct S as (E & L & S). destruct (R h (or_introl eq_refl)) as [H|H].
  - exists h. split; auto. split; auto. lra.
  - destruct (IH _ e S P H B) as (i & I & X); [intros; apply R; auto|]. exists i. tauto.
Qed.

(** coefficient of an element *)
Definition coef (d : list item) (water : Q) (e : Q * Q) (c : Q) : Prop :=
  exists i, In i d /\ i_bottom i <= snd e /\ fst e <= i_top i /\
    c == (if Qle_bool (fst e) water then i_wet i else i_dry i).

(** ** Stress *)

Definition layer_item (l : layer) : item := mkItem (l_top l) (l_bottom l) (l_weight l) (l_weight l - 10).
Definition layer_items (d : list layer) : list item := map layer_item d.

Lemma overburden_integral : forall d water z, overburden d water z = integral (layer_items d) water z.
Proof. intros. unfold overburden, integral, layer_items. rewrite map_map. reflexivity. Qed.

Lemma overburden_perm : forall d d' water z, Permutation d d' -> overburden d water z == overburden d' water z.
Proof. intros. unfold overburden. apply Qsum_perm; auto. Qed.

Lemma exact_istack : forall d g, exact_stack g d -> istack g (layer_items d).
Proof. induction d as [|h t IH]; simpl; auto. intros g (A & B & C). auto. Qed.

Lemma exact_bottom : forall d g, ibottom g (layer_items d) = stack_bottom g d.
Proof. induction d as [|h t IH]; simpl; auto. Qed.

Lemma exact_tops : forall d g l, exact_stack g d -> In l d -> l_top l <= g.
Proof.
  intros d g l S I. apply exact_istack in S. change (l_top l) with (i_top (layer_item l)).
  eapply istack_below; eauto. apply in_map; auto.
Qed.

Lemma exact_unique : forall d g l l', exact_stack g d -> In l d -> In l' d -> l_top l == l_top l' -> l = l'.
Proof.
  induction d as [|h t IH]; intros g l l' S I I' E; [destruct I|]. destruct S as (A & B & S).
  destruct I as [<-|I], I' as [<-|I']; auto.
  - pose proof (exact_tops _ _ _ S I'). lra.
  - pose proof (exact_tops _ _ _ S I). lra.
  - eapply IH; eauto.
Qed.

Lemma layer_disjoint : forall d g l l', exact_stack g d -> In l d -> In l' d ->
  l = l' \/ l_top l' <= l_bottom l \/ l_top l <= l_bottom l'.
Proof.
  induction d as [|h t IH]; intros g l l' S I I'; [destruct I|]. destruct S as (A & B & S).
  destruct I as [<-|I], I' as [<-|I']; auto.
  - right; left. eapply exact_tops; eauto.
  - right; right. eapply exact_tops; eauto.
  - eapply IH; eauto.
Qed.

Lemma layer_rows_in : forall layers k l, In (k, l) (layer_rows layers) <-> In l layers /\ k = l_top l.
Proof.
  intros layers k l. unfold layer_rows.
  assert (H : In (k, l) (sort_by fst (map (fun x => (l_top x, x)) layers)) <-> In (k, l) (map (fun x => (l_top x, x)) layers)).
  { split; apply Permutation_in; [apply Permutation_sym|]; apply sort_perm. }
  rewrite H, in_map_iff. split.
  - intros (x & E & I). inversion E; subst; auto.
  - intros (I & ->). exists l; auto.
Qed.

Lemma elem_weight_in : forall layers d g water l e, Permutation layers d -> exact_stack g d -> In l d ->
  l_bottom l < fst e -> fst e <= l_top l ->
  elem_weight layers water e = Some (if Qle_bool (fst e) water then l_weight l - 10 else l_weight l).
Proof.
  intros layers d g water l e PM S I B U. unfold elem_weight.
  assert (IL : In (l_top l, l) (layer_rows layers)).
  { apply layer_rows_in. split; auto. eapply Permutation_in; [apply Permutation_sym; eauto|auto]. }
  destruct (asof_some _ (layer_rows layers) (fst e) _ _ IL U) as [l' A]. rewrite A. simpl.
  assert (SR : StronglySorted (fun x y : Q * layer => fst x <= fst y) (layer_rows layers)).
  { unfold layer_rows. apply sort_by_ascending. }
  destruct (asof_spec _ _ _ _ SR A) as (k & Ik & LK & MK). specialize (MK _ _ IL U).
  apply layer_rows_in in Ik. destruct Ik as [Il' ->].
  assert (I' : In l' d) by (eapply Permutation_in; eauto).
  assert (l' = l); [|subst; auto].
  destruct (layer_disjoint d g l l' S I I') as [->|[D|D]]; auto.
  - exfalso. lra.
  - eapply exact_unique; eauto.
    assert (l_bottom l' < l_top l').
    { clear - S I'. revert g S. induction d as [|h t IH]; intros g S; [destruct I'|]. destruct S as (A & B & S).
      destruct I' as [<-|I']; auto. eapply IH; eauto. }
    lra.
Qed.

Lemma elem_weight_above : forall layers d g water e, Permutation layers d -> exact_stack g d -> g < fst e ->
  elem_weight layers water e = None.
Proof.
  intros layers d g water e PM S G. unfold elem_weight. rewrite asof_none; auto.
  intros k l I. apply layer_rows_in in I. destruct I as [I ->].
  assert (In l d) by (eapply Permutation_in; eauto). pose proof (exact_tops _ _ _ S H). lra.
Qed.


(** cumulative sum of the increments of the elements below ground *)
Lemma cumsum_below : forall layers d g water below top acc, Permutation layers d -> exact_stack g d ->
  chain top below -> top <= g -> (forall e, In e below -> stack_bottom g d <= snd e) ->
  (forall l, In l d -> respected below (l_bottom l)) -> respected below water ->
  acc == overburden d water top ->
  Forall2 nan_eq (cumsum acc (map (stress_increment layers water) below))
                 (map (fun e => Some (overburden layers water (snd e))) below).
Proof.
  intros layers d g water below. induction below as [|e t IH]; intros top acc PM S C T SB R W A; simpl; auto.
  destruct C as (E & P & C).
  destruct (element_item (layer_items d) g e (exact_istack _ _ S) P) as (i & Ii & Bi & Ti).
  - lra.
  - rewrite exact_bottom. apply SB. left; auto.
  - intros i Ii. apply in_map_iff in Ii. destruct Ii as (l & <- & Il). simpl. apply (R l Il e). left; auto.
  - pose proof Ii as Ii0. apply in_map_iff in Ii. destruct Ii as (l & <- & Il). simpl in Bi, Ti.
    assert (X : stress_increment layers water e = Some ((fst e - snd e) * (if Qle_bool (fst e) water then l_weight l - 10 else l_weight l))).
    { unfold stress_increment. rewrite (elem_weight_in layers d g water l e) by (auto; lra). reflexivity. }
    rewrite X.
    assert (NX : acc + (fst e - snd e) * (if Qle_bool (fst e) water then l_weight l - 10 else l_weight l) == overburden d water (snd e)).
    { rewrite A, !overburden_integral.
      rewrite (integral_step (layer_items d) g water (fst e) (snd e) (layer_item l)); auto; try lra.
      - assert (EI : integral (layer_items d) water top == integral (layer_items d) water (fst e)).
        { unfold integral. assert (forall L, Qsum (map (fun i => i_dry i * i_dry_above water top i + i_wet i * i_wet_above water top i) L) == Qsum (map (fun i => i_dry i * i_dry_above water (fst e) i + i_wet i * i_wet_above water (fst e) i) L)) as XX; [|apply XX].
          induction L as [|h L IHL]; simpl; [reflexivity|]. rewrite IHL. unfold i_dry_above, i_wet_above, height. rewrite <- E. reflexivity. }
        rewrite EI. reflexivity.
      - apply exact_istack; auto.
      - apply (W e). left; auto. }
    constructor.
    + simpl. rewrite NX. apply overburden_perm. apply Permutation_sym; auto.
    + apply (IH (snd e)); auto; try lra.
      * intros; apply SB; right; auto.
      * intros x Hx y Hy. apply (R x Hx). right; auto.
      * intros y Hy. apply W. right; auto.
Qed.

Lemma chain_top : forall t a e, chain a t -> In e t -> fst e <= a.
Proof.
  induction t as [|h t IH]; intros a e C I; [destruct I|]. destruct C as (E & P & C).
  destruct I as [<-|I]; [lra|]. specialize (IH _ _ C I). lra.
Qed.

Lemma where_eq_none : forall elems i g, (forall e, In e elems -> ~ fst e == g) -> where_eq i g elems = [].
Proof.
  induction elems as [|e t IH]; intros i g H; auto. simpl.
  assert (X : Qeq_bool (fst e) g = false) by (apply Qeqb_false, H; left; auto). rewrite X.
  apply IH. intros; apply H; right; auto.
Qed.

Lemma where_eq_app : forall above below i g, (forall e, In e above -> ~ fst e == g) ->
  where_eq i g (above ++ below) = where_eq (i + length above) g below.
Proof.
  induction above as [|e t IH]; intros below i g H; simpl; [f_equal; lia|].
  assert (X : Qeq_bool (fst e) g = false) by (apply Qeqb_false, H; left; auto). rewrite X.
  rewrite IH by (intros; apply H; right; auto). f_equal. lia.
Qed.

Lemma cumsum_nones : forall above acc l, cumsum acc (map (fun _ : Q * Q => None) above ++ l) =
  map (fun _ => None) above ++ cumsum acc l.
Proof. induction above; intros; simpl; auto. f_equal; auto. Qed.

Lemma removelast_tops : forall g (f : Q -> Q) below cs e0, (forall x y, x == y -> f x == f y) ->
  chain g (e0 :: below) -> Forall2 nan_eq cs (map (fun e => Some (f (snd e))) (e0 :: below)) ->
  Forall2 nan_eq (removelast cs) (map (fun e => Some (f (fst e))) below).
Proof.
  intros g f below. revert g. induction below as [|e t IH]; intros g cs e0 CF C F.
  - inversion F as [|c x cs' xs E0 F' ]; subst. inversion F'; subst. simpl. constructor.
  - inversion F as [|c x cs' xs E0 F']; subst. inversion F' as [|c' x' cs'' xs' E1 F'']; subst.
    change (removelast (c :: c' :: cs'')) with (c :: removelast (c' :: cs'')). simpl map.
    destruct C as (_ & _ & C). constructor.
    + destruct C as (E & _ & _). simpl in E0. destruct c; simpl in *; auto. rewrite E0. apply CF. symmetry; auto.
    + eapply IH; eauto.
Qed.

Lemma height_comp : forall a a' b b', a == a' -> b == b' -> height a b == height a' b'.
Proof. intros a a' b b' E1 E2. unfold height. rewrite E1, E2. reflexivity. Qed.

Lemma overburden_comp : forall layers water a b, a == b -> overburden layers water a == overburden layers water b.
Proof.
  intros layers water a b E. unfold overburden. induction layers as [|h t IH]; simpl; [reflexivity|].
  rewrite IH. unfold dry_above, wet_above. 
  rewrite (height_comp (Qmax (Qmax a (l_bottom h)) water) (Qmax (Qmax b (l_bottom h)) water) (l_top h) (l_top h)).
  2:{ rewrite E. reflexivity. } 2:{ reflexivity. }
  rewrite (height_comp (Qmax a (l_bottom h)) (Qmax b (l_bottom h)) (Qmin (l_top h) water) (Qmin (l_top h) water)).
  2:{ rewrite E. reflexivity. } 2:{ reflexivity. } reflexivity.
Qed.

Lemma overburden_ground : forall layers d g water, Permutation layers d -> exact_stack g d -> overburden layers water g == 0.
Proof.
  intros layers d g water P S. rewrite (overburden_perm _ _ _ _ P), overburden_integral.
  eapply integral_below; [apply exact_istack; eauto|lra].
Qed.

Lemma Forall2_app' : forall A B (R : A -> B -> Prop) a a' b b', Forall2 R a b -> Forall2 R a' b' -> Forall2 R (a ++ a') (b ++ b').
Proof. intros. apply Forall2_app; auto. Qed.

Lemma nones_eq : forall (l : list (Q * Q)), Forall2 nan_eq (map (fun _ => None) l) (map (fun _ => None) l).
Proof. induction l; simpl; constructor; simpl; auto. Qed.

Lemma stress_is_overburden : forall layers d g water above e0 below,
  Permutation layers d -> exact_stack g d ->
  (forall e, In e above -> g < fst e) -> chain g (e0 :: below) ->
  (forall e, In e (e0 :: below) -> stack_bottom g d <= snd e) ->
  (forall l, In l d -> respected (e0 :: below) (l_bottom l)) -> respected (e0 :: below) water ->
  exists tops bots, stress layers g water (above ++ e0 :: below) = Ok (tops, bots) /\
    Forall2 nan_eq tops (map (fun _ => None) above ++ map (fun e => Some (overburden layers water (fst e))) (e0 :: below)) /\
    Forall2 nan_eq bots (map (fun _ => None) above ++ map (fun e => Some (overburden layers water (snd e))) (e0 :: below)).
Proof.
  intros layers d g water above e0 below PM S AB C SB R W.
  pose proof C as (E0 & P0 & C0).
  assert (CS : Forall2 nan_eq (cumsum 0 (map (stress_increment layers water) (e0 :: below)))
                 (map (fun e => Some (overburden layers water (snd e))) (e0 :: below))).
  { eapply cumsum_below; eauto; [lra|]. rewrite <- (overburden_perm _ _ _ _ PM). symmetry. eapply overburden_ground; eauto. }
  assert (AN : map (stress_increment layers water) above = map (fun _ => None) above).
  { clear - AB PM S. induction above as [|e t IH]; simpl; auto. rewrite IH by (intros; apply AB; right; auto).
    f_equal. unfold stress_increment. rewrite (elem_weight_above layers d g); auto. apply AB; left; auto. }
  assert (WH : where_eq 0 g (above ++ e0 :: below) = [length above]).
  { rewrite where_eq_app by (intros e He X; specialize (AB e He); lra). simpl.
    assert (X : Qeq_bool (fst e0) g = true) by (apply Qeqb_true; auto). rewrite X.
    rewrite where_eq_none; auto. intros e He X'. pose proof (chain_top _ _ _ C0 He). lra. }
  unfold stress. rewrite WH, map_app, AN, cumsum_nones.
  set (cs := cumsum 0 (map (stress_increment layers water) (e0 :: below))) in *.
  eexists; eexists. split; [reflexivity|].
  assert (NE : cs <> []) by (intros X; rewrite X in CS; inversion CS).
  split.
  - unfold insert_at. rewrite removelast_app by auto.
    assert (LA : length (map (fun _ : Q * Q => @None Q) above) = length above) by apply map_length.
    rewrite firstn_app, LA, Nat.sub_diag. rewrite firstn_all2 by lia. simpl firstn. rewrite app_nil_r.
    rewrite skipn_app, LA, Nat.sub_diag. rewrite skipn_all2 by lia. simpl skipn. simpl app.
    apply Forall2_app'; [apply nones_eq|]. simpl map. constructor.
    + simpl. rewrite (overburden_comp _ _ _ _ E0). symmetry. eapply overburden_ground; eauto.
    + eapply removelast_tops; eauto. intros; apply overburden_comp; auto.
  - apply Forall2_app'; [apply nones_eq|]. exact CS.
Qed.

Lemma height_antitone : forall a a' b, a <= a' -> height a' b <= height a b.
Proof. intros. unfold height. qmm; lra. Qed.

Lemma height_nonneg : forall a b, 0 <= height a b.
Proof. intros. unfold height. apply Q.le_max_l. Qed.

Lemma overburden_antitone : forall layers water z z', (forall l, In l layers -> 10 < l_weight l) -> z <= z' ->
  0 <= overburden layers water z' /\ overburden layers water z' <= overburden layers water z.
Proof.
  intros layers water z z' W L. unfold overburden. induction layers as [|h t IH]; simpl; [lra|].
  specialize (W h (or_introl eq_refl)) as Wh. destruct IH as [I1 I2]; [intros; apply W; right; auto|].
  assert (M1 : Qmax z (l_bottom h) <= Qmax z' (l_bottom h)) by (apply Q.max_le_compat_r; auto).
  assert (M2 : Qmax (Qmax z (l_bottom h)) water <= Qmax (Qmax z' (l_bottom h)) water) by (apply Q.max_le_compat_r; auto).
  assert (D : dry_above water z' h <= dry_above water z h) by (apply height_antitone; auto).
  assert (Wt : wet_above water z' h <= wet_above water z h) by (apply height_antitone; auto).
  assert (D0 : 0 <= dry_above water z' h) by apply height_nonneg.
  assert (W0 : 0 <= wet_above water z' h) by apply height_nonneg.
  assert (A1 : 0 <= l_weight h * dry_above water z' h) by (apply Qmult_le_0_compat; lra).
  assert (A2 : 0 <= (l_weight h - 10) * wet_above water z' h) by (apply Qmult_le_0_compat; lra).
  split; [lra|].
  assert (l_weight h * dry_above water z' h <= l_weight h * dry_above water z h) by (rewrite Qmult_comm, (Qmult_comm (l_weight h)); apply Qmult_le_compat_r; lra).
  assert ((l_weight h - 10) * wet_above water z' h <= (l_weight h - 10) * wet_above water z h) by (rewrite Qmult_comm, (Qmult_comm (l_weight h - 10)); apply Qmult_le_compat_r; lra).
  lra.
Qed.

Lemma stress_needs_ground_node : forall layers g water elems, (forall e, In e elems -> ~ fst e == g) ->
  stress layers g water elems = Err ValueError.
Proof. intros. unfold stress. rewrite where_eq_none; auto. Qed.
