From Coq Require Import List Bool Arith ZArith QArith Qabs Qminmax Qround Lia Lqa Sorted Permutation.
From Verif Require Import Base PileModel PileSpec PileProofs MeshModel MeshSpec MeshProofs StressModel StressSpec StressProofs WeightProofs GridProofs.
Import ListNotations.
Local Open Scope Q_scope.

Lemma shaft_cons : forall a b f x y t,
  shaft_sum ((a, b) :: f) (x :: y :: t) == Qabs (a * x + b * y) + shaft_sum f (y :: t).
Proof.
  intros. unfold shaft_sum. change (removelast (x :: y :: t)) with (x :: removelast (y :: t)).
  cbn [tl combine map fst snd]. rewrite Qsum_cons. cbn [tl]. destruct t; reflexivity.
Qed.

(** influences of the nodes after the first *)
Fixpoint infl_from (z : list Q) : list Q :=
  match z with
  | a :: ((b :: r) as t) =>
      match r with
      | [] => [Qabs (b - a) / 2]
      | c :: _ => Qabs ((c - a) / 2) / 2 :: infl_from t
      end
  | _ => []
  end.

Lemma infl_from_eq : forall r a b, exists y x q, rev (a :: b :: r) = y :: x :: q /\
  map (fun g => Qabs g / 2) (grad_inner (a :: b :: r) ++ [y - x]) = infl_from (a :: b :: r).
Proof.
  induction r as [|c r IH]; intros a b.
  - exists b, a, []. split; reflexivity.
  - destruct (IH b c) as (y & x & q & R & E). exists y, x, (q ++ [a]). split.
    + change (rev (a :: b :: c :: r)) with (rev (b :: c :: r) ++ [a]). rewrite R. reflexivity.
    + change (grad_inner (a :: b :: c :: r)) with ((c - a) / 2 :: grad_inner (b :: c :: r)).
      change (infl_from (a :: b :: c :: r)) with (Qabs ((c - a) / 2) / 2 :: infl_from (b :: c :: r)).
      rewrite <- E. reflexivity.
Qed.

Lemma influence_eq : forall a b r, influence (a :: b :: r) = Some (Qabs (b - a) / 2 :: infl_from (a :: b :: r)).
Proof.
  intros a b r. unfold influence, gradient. destruct (infl_from_eq r a b) as (y & x & q & R & E).
  rewrite R. cbn [option_map map]. rewrite E. reflexivity.
Qed.



Lemma half_abs : forall a b, b < a -> Qabs (b - a) / 2 == (a - b) * (1#2).
Proof. intros. unfold Qdiv. change (/2) with (1#2). rewrite Qabs_neg by lra. ring. Qed.

Lemma quarter_abs : forall a c, c < a -> Qabs ((c - a) / 2) / 2 == (a - c) * (1#4).
Proof.
  intros. unfold Qdiv. change (/2) with (1#2). rewrite Qabs_neg by lra. ring.
Qed.

Lemma abs_sum : forall s a b x y, (s == 1 \/ s == -(1)) -> 0 <= a * s -> 0 <= b * s -> 0 <= x -> 0 <= y ->
  Qabs (a * x + b * y) == Qabs a * x + Qabs b * y.
Proof.
  intros s a b x y S A B X Y.
  assert (AA : Qabs a == a * s /\ Qabs b == b * s).
  { destruct S as [S|S]; rewrite S in *.
    - rewrite !Qabs_pos by lra. split; ring.
    - rewrite !Qabs_neg by lra. split; ring. }
  destruct AA as [-> ->].
  assert (P1 : 0 <= (a * s) * x) by (apply Qmult_le_0_compat; auto).
  assert (P2 : 0 <= (b * s) * y) by (apply Qmult_le_0_compat; auto).
  destruct S as [S|S]; rewrite S in *.
  - rewrite Qabs_pos by lra. ring.
  - rewrite Qabs_neg by lra. ring.
Qed.

Lemma shaft_continuous_from : forall s r a b phi X, (s == 1 \/ s == -(1)) -> desc (a :: b :: r) ->
  length phi = length (a :: b :: r) -> (forall f, In f phi -> 0 <= f * s) -> 0 <= X ->
  shaft_sum (nodal phi) (X :: infl_from (a :: b :: r)) ==
  trapezoid (nodal phi) (diffs (a :: b :: r)) + Qabs (hd 0 phi) * (X - (a - b) * (1#2)).
Proof.
  intros s. induction r as [|c r IH]; intros a b phi X SG D L P PX.
  - destruct phi as [|f0 [|f1 [|]]]; try discriminate.
    inversion D as [|? ? Dt F]; subst. inversion F; subst. unfold gtQ in *.
    cbn [infl_from nodal diffs trapezoid hd]. rewrite shaft_cons.
    rewrite (abs_sum s) by (auto; try solve [apply P; simpl; auto]; rewrite half_abs by auto; lra).
    change (shaft_sum [] _) with 0. rewrite half_abs by auto. unfold Qdiv. change (/2) with (1#2). ring.
  - destruct phi as [|f0 [|f1 phi]]; try discriminate.
    inversion D as [|? ? Dt F]; subst. inversion F as [|? ? F1 F2]; subst. inversion F2; subst. unfold gtQ in *.
    change (infl_from (a :: b :: c :: r)) with (Qabs ((c - a) / 2) / 2 :: infl_from (b :: c :: r)).
    change (nodal (f0 :: f1 :: phi)) with ((f0, f1) :: nodal (f1 :: phi)).
    change (diffs (a :: b :: c :: r)) with ((a - b) :: diffs (b :: c :: r)).
    rewrite shaft_cons.
    rewrite (IH b c (f1 :: phi) (Qabs ((c - a) / 2) / 2)); auto.
    2:{ intros f Hf. apply P. right; auto. }
    2:{ rewrite quarter_abs by auto. lra. }
    rewrite (abs_sum s) by (auto; try solve [apply P; simpl; auto]; rewrite quarter_abs by auto; lra).
    cbn [trapezoid hd]. rewrite quarter_abs by auto. unfold Qdiv. change (/2) with (1#2). ring.
Qed.

Lemma shaft_continuous : forall s z phi infl, (s == 1 \/ s == -(1)) -> strictly_descending z ->
  influence z = Some infl -> length phi = length z -> (forall f, In f phi -> 0 <= f * s) ->
  shaft_sum (nodal phi) infl == trapezoid (nodal phi) (diffs z).
Proof.
  intros s z phi infl SG D I L P. apply desc_nth in D.
  destruct z as [|a [|b r]]; [discriminate|discriminate|].
  rewrite influence_eq in I. assert (EI : infl = Qabs (b - a) / 2 :: infl_from (a :: b :: r)) by congruence. clear I. subst infl.
  inversion D as [|? ? Dt F]; subst. inversion F; subst. unfold gtQ in *.
  rewrite (shaft_continuous_from s); auto; [|rewrite half_abs by auto; lra].
  rewrite half_abs by auto. ring.
Qed.

Lemma shaft_uniform_from : forall h f infl, 0 <= h -> (forall x, In x infl -> x == h * (1#2)) ->
  length infl = S (length f) -> (forall p, In p f -> 0 <= fst p * snd p) ->
  shaft_sum f infl == trapezoid f (map (fun _ => h) f).
Proof.
  intros h f. induction f as [|[a b] f IH]; intros infl H I L P.
  - destruct infl as [|x [|]]; try discriminate. reflexivity.
  - destruct infl as [|x [|y t]]; try discriminate. rewrite shaft_cons, IH; auto.
    2:{ intros z Hz. apply I. right; auto. }
    2:{ intros p Hp. apply P. right; auto. }
    cbn [map trapezoid].
    specialize (P (a, b) (or_introl eq_refl)). simpl in P.
    assert (X : x == h * (1#2)) by (apply I; simpl; auto). assert (Y : y == h * (1#2)) by (apply I; simpl; auto).
    assert (E : Qabs (a * x + b * y) == Qabs (a + b) * (h * (1#2))).
    { assert (Z : a * x + b * y == (a + b) * (h * (1#2))) by (rewrite X, Y; ring).
      rewrite Z, Qabs_Qmult, (Qabs_pos (h * (1#2))) by lra. reflexivity. }
    rewrite E.
    assert (T : Qabs (a + b) == Qabs a + Qabs b).
    { destruct (Qlt_le_dec a 0) as [A|A], (Qlt_le_dec b 0) as [B|B].
      - rewrite !Qabs_neg by lra. ring.
      - destruct (Qlt_le_dec 0 b); [exfalso; nra|]. assert (Zb : b == 0) by lra. rewrite Zb, Qplus_0_r. change (Qabs 0) with 0. ring.
      - destruct (Qlt_le_dec 0 a); [exfalso; nra|]. assert (Za : a == 0) by lra. rewrite Za, Qplus_0_l. change (Qabs 0) with 0. ring.
      - rewrite !Qabs_pos by lra. ring. }
    rewrite T. unfold Qdiv. change (/2) with (1#2). ring.
Qed.

Lemma infl_uniform : forall h r a b, 0 < h -> (forall i u v, nth_error (a :: b :: r) i = Some u -> nth_error (a :: b :: r) (S i) = Some v -> u - v == h) ->
  (forall x, In x (infl_from (a :: b :: r)) -> x == h * (1#2)) /\ length (infl_from (a :: b :: r)) = S (length r).
Proof.
  intros h. induction r as [|c r IH]; intros a b H U.
  - pose proof (U O a b eq_refl eq_refl). split; auto. intros x [<-|[]]. rewrite half_abs by lra. lra.
  - pose proof (U O a b eq_refl eq_refl). pose proof (U 1%nat b c eq_refl eq_refl).
    destruct (IH b c H) as [A B]; [intros i u v Hu Hv; apply (U (S i) u v Hu Hv)|].
    change (infl_from (a :: b :: c :: r)) with (Qabs ((c - a) / 2) / 2 :: infl_from (b :: c :: r)).
    split.
    + intros x [<-|Hx]; auto. rewrite quarter_abs by lra. lra.
    + cbn [length]. rewrite B. reflexivity.
Qed.

Lemma shaft_uniform : forall h z f infl, 0 < h ->
  (forall i u v, nth_error z i = Some u -> nth_error z (S i) = Some v -> u - v == h) ->
  influence z = Some infl -> length z = S (length f) -> (forall p, In p f -> 0 <= fst p * snd p) ->
  shaft_sum f infl == trapezoid f (map (fun _ => h) f).
Proof.
  intros h z f infl H U I L P. destruct z as [|a [|b r]]; [discriminate|discriminate|].
  rewrite influence_eq in I. assert (EI : infl = Qabs (b - a) / 2 :: infl_from (a :: b :: r)) by congruence. clear I. subst infl.
  destruct (infl_uniform h r a b H U) as [A B]. pose proof (U O a b eq_refl eq_refl).
  apply shaft_uniform_from; auto; try lra.
  - intros x [<-|Hx]; auto. rewrite half_abs by lra. lra.
  - cbn [length] in *. lia.
Qed.

(** two layers of constant but different friction on a mesh of unequal elements *)
Lemma shaft_wrong : exists z f infl, strictly_descending z /\ influence z = Some infl /\
  length z = S (length f) /\ (forall p, In p f -> fst p == snd p) /\
  shaft_sum f infl == 12.5 /\ trapezoid f (diffs z) == 10.
Proof.
  exists [0; -1; -3], [(10, 10); (0, 0)]. eexists. split.
  { apply desc_nth. repeat constructor. }
  split; [vm_compute; reflexivity|]. split; [reflexivity|].
  split; [intros p [<-|[<-|[]]]; reflexivity|]. split; vm_compute; reflexivity.
Qed.

(** ** Witnesses for element properties *)

Definition v_s1 := mkSection 0 (-10) 2 1 1 1 1 1 1.
Definition v_s2 := mkSection (-10) (-20) 3 2 2 2 2 2 2.

Lemma wrong_section : exists l p s e, proper l /\ make_pile l = Ok p /\ In s p /\ in_section s e /\
  ascending_of (stable_rows p) (data_rows p) /\
  element_property s_width (stable_rows p) e = Some 2 /\ s_width s = 3.
Proof.
  exists [v_s1; v_s2], [v_s1; v_s2], v_s2, (-15, -20).
  split; [intros s [<-|[<-|[]]]; reflexivity|]. split; [vm_compute; reflexivity|].
  split; [right; left; reflexivity|].
  split; [split; [|split]; vm_compute; try reflexivity; discriminate|].
  split; [apply sort_by_ascending|]. split; vm_compute; reflexivity.
Qed.

Lemma wrong_section_always : forall l p i a s e, proper l -> make_pile l = Ok p ->
  nth_error p i = Some a -> nth_error p (S i) = Some s -> in_section s e ->
  asof_forward (stable_rows p) (fst e) = Some a.
Proof.
  intros l p i a s e P M Ha Hs (L & X & U). destruct (accepted_facts l p P M) as (Pp & C & _).
  eapply stable_gives_above; eauto. lra.
Qed.

Lemma p2e_value : forall A (f : section -> A) l p s elems i e, proper l -> make_pile l = Ok p -> In s p ->
  nth_error elems i = Some e -> in_section s e ->
  nth_error (parameter2elements (section_objs f p) elems) i = Some (Some (f s)).
Proof.
  intros A f l p s elems i e P M Hs Hi IS. destruct (accepted_facts l p P M) as (Pp & C & _).
  rewrite p2e_map, nth_error_map, Hi. simpl. f_equal. apply section_lookup; auto.
Qed.

Lemma p2e_nan : forall A (objs : list (Q * Q * A)) elems i e, nth_error elems i = Some e ->
  (forall t b v, In (t, b, v) objs -> ~ (fst e <= t /\ b <= snd e)) ->
  nth_error (parameter2elements objs elems) i = Some None.
Proof. intros A objs elems i e Hi H. rewrite p2e_map, nth_error_map, Hi. simpl. f_equal. apply lookup_none; auto. Qed.

Lemma p2e_last_wins : forall A (o1 o2 : list (Q * Q * A)) t b v elems i e, nth_error elems i = Some e ->
  fst e <= t -> b <= snd e -> (forall t' b' v', In (t', b', v') o2 -> ~ (fst e <= t' /\ b' <= snd e)) ->
  nth_error (parameter2elements (o1 ++ (t, b, v) :: o2) elems) i = Some (Some v).
Proof. intros A o1 o2 t b v elems i e Hi L1 L2 H. rewrite p2e_map, nth_error_map, Hi. simpl. f_equal. apply lookup_last; auto. Qed.

Lemma p2e_length : forall A (objs : list (Q * Q * A)) elems, length (parameter2elements objs elems) = length elems.
Proof. intros. rewrite p2e_map. apply map_length. Qed.

(** a pile head with more than four decimals: the top element leaves its section *)
Lemma nan_weight : exists l p t b c m, proper l /\ make_pile l = Ok p /\ pile_top p = Ok t /\ pile_bottom p = Ok b /\
  0.01 <= c /\ mesh p b (Some [mkLayer 0 (-20) 18]) [] c = Some m /\
  effective_pile_weight 78 0 p (elements_of m) = None.
Proof.
  exists [mkSection 0.00006 (-10) 1 1 1 1 1 1 1], [mkSection 0.00006 (-10) 1 1 1 1 1 1 1], 0.00006, (-10), 10.
  eexists. split; [intros s [<-|[]]; reflexivity|]. split; [vm_compute; reflexivity|]. split; [reflexivity|].
  split; [reflexivity|]. split; [vm_compute; discriminate|]. split; vm_compute; reflexivity.
Qed.

(** ground level with more than four decimals: ValueError *)
Lemma ground_off_grid : exists p b g layers c m, make_pile p = Ok p /\ proper p /\ pile_bottom p = Ok b /\
  make_profile g layers = Ok layers /\ 0.01 <= c /\ mesh p b (Some layers) [] c = Some m /\
  stress layers g 0 (elements_of m) = Err ValueError.
Proof.
  exists [mkSection 5 (-10) 1 1 1 1 1 1 1], (-10), (-1.00001), [mkLayer (-1.00001) (-20) 18], 2.
  eexists. split; [vm_compute; reflexivity|]. split; [intros s [<-|[]]; reflexivity|]. split; [reflexivity|].
  split; [vm_compute; reflexivity|]. split; [vm_compute; discriminate|]. split; vm_compute; reflexivity.
Qed.

(** a water line between two nodes: the stress is not the overburden *)
Lemma water_off_mesh : exists p b g layers water c m tops bots s, make_pile p = Ok p /\ proper p /\ pile_bottom p = Ok b /\
  make_profile g layers = Ok layers /\ 0.01 <= c /\ mesh p b (Some layers) [] c = Some m /\
  stress layers g water (elements_of m) = Ok (tops, bots) /\ last bots None = Some s /\
  s == 280 /\ overburden layers water b == 260.
Proof.
  exists [mkSection 0 (-20) 1 1 1 1 1 1 1], (-20), 0, [mkLayer 0 (-20) 18], (-10), 4.
  eexists _, _, _, _. split; [vm_compute; reflexivity|]. split; [intros s [<-|[]]; reflexivity|]. split; [reflexivity|].
  split; [vm_compute; reflexivity|]. split; [vm_compute; discriminate|]. split; [vm_compute; reflexivity|].
  split; [vm_compute; reflexivity|]. split; [vm_compute; reflexivity|]. split; vm_compute; reflexivity.
Qed.

(** ** tip stress witnesses *)
Lemma tip_two_layers : exists layers g tip water s, exact_stack g layers /\ stack_bottom g layers <= tip /\
  tip_sig_v_eff tip water 0 layers = Some s /\ s == 80 /\ overburden layers water tip == 170.
Proof.
  exists [mkLayer 0 (-10) 18; mkLayer (-10) (-20) 19], 0, (-20), 0. eexists.
  split; [simpl; repeat split; reflexivity|]. split; [vm_compute; discriminate|]. split; [vm_compute; reflexivity|].
  split; vm_compute; reflexivity.
Qed.

Lemma tip_dry_layer : exists l tip water s, l_bottom l < tip /\ tip < l_top l /\
  tip_sig_v_eff tip water 0 [l] = Some s /\ s == 0 /\ overburden [l] water tip == 180.
Proof.
  exists (mkLayer 0 (-20) 18), (-10), (-30). eexists.
  split; [reflexivity|]. split; [reflexivity|]. split; [vm_compute; reflexivity|]. split; vm_compute; reflexivity.
Qed.

Lemma tip_single : forall tip water mud l, l_bottom l < l_top l ->
  (tip <= l_bottom l \/ l_bottom l < water \/ l_top l <= tip) ->
  exists s, tip_sig_v_eff tip water mud [l] = Some s /\ s == mud + overburden [l] water tip.
Proof. intros tip water mud l P H. eexists. split; [reflexivity|]. apply tip_layer_ok; auto. Qed.

Lemma tip_none : forall tip water mud, tip_sig_v_eff tip water mud [] = None.
Proof. reflexivity. Qed.
