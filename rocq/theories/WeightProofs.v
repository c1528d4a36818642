From Coq Require Import List Bool Arith ZArith QArith Qabs Qminmax Qround Lia Lqa Sorted Permutation.
From Verif Require Import Base PileModel PileSpec PileProofs MeshModel MeshSpec MeshProofs StressModel StressSpec StressProofs.
Import ListNotations.
Local Open Scope Q_scope.

(** ** Elements inside an interval *)

Lemma Qsum_cons : forall a l, Qsum (a :: l) == a + Qsum l.
Proof. reflexivity. Qed.

Lemma Qsum_app : forall l l', Qsum (l ++ l') == Qsum l + Qsum l'.
Proof. induction l as [|a l IH]; intros; simpl; [ring|]. rewrite IH. ring. Qed.

Lemma Qsum_ext : forall A (f g : A -> Q) l, (forall x, In x l -> f x == g x) -> Qsum (map f l) == Qsum (map g l).
Proof.
  intros A f g l H. induction l as [|a l IH]; simpl; [reflexivity|].
  rewrite (H a (or_introl eq_refl)), IH; [reflexivity|]. intros; apply H; right; auto.
Qed.

Lemma Qsum_plus : forall A (f g : A -> Q) l, Qsum (map (fun x => f x + g x) l) == Qsum (map f l) + Qsum (map g l).
Proof. intros A f g l. induction l as [|a l IH]; simpl; [ring|]. rewrite IH. ring. Qed.

Lemma Qsum_scal : forall A (f : A -> Q) c l, Qsum (map (fun x => c * f x) l) == c * Qsum (map f l).
Proof. intros A f c l. induction l as [|a l IH]; simpl; [ring|]. rewrite IH. ring. Qed.

Lemma Qsum_zero : forall A (l : list A), Qsum (map (fun _ => 0) l) == 0.
Proof. intros A l. induction l as [|a l IH]; simpl; [reflexivity|]. rewrite IH. ring. Qed.

Lemma Qsum_swap : forall A B (f : A -> B -> Q) la lb,
  Qsum (map (fun a => Qsum (map (f a) lb)) la) == Qsum (map (fun b => Qsum (map (fun a => f a b) la)) lb).
Proof.
  intros A B f la lb. induction la as [|a la IH]; simpl.
  - symmetry. apply Qsum_zero.
  - rewrite IH, <- Qsum_plus. reflexivity.
Qed.

Fixpoint chain_bottom (top : Q) (elems : list (Q * Q)) : Q :=
  match elems with [] => top | e :: t => chain_bottom (snd e) t end.

Lemma chain_bottom_le : forall elems top, chain top elems -> chain_bottom top elems <= top.
Proof.
  induction elems as [|e t IH]; intros top C; simpl; [lra|]. destruct C as (E & P & C).
  specialize (IH _ C). lra.
Qed.

Definition ih (T B : Q) (e : Q * Q) : Q := if inside T B e then fst e - snd e else 0.

Lemma inside_true : forall T B e, inside T B e = true <-> fst e <= T /\ B <= snd e.
Proof. intros. unfold inside. rewrite andb_true_iff, !Qleb_true. tauto. Qed.

Lemma inside_false : forall T B e, inside T B e = false <-> T < fst e \/ snd e < B.
Proof. intros. unfold inside. rewrite andb_false_iff, !Qleb_false. tauto. Qed.

Lemma interval_sum : forall T B elems top, chain top elems -> respected elems T -> respected elems B ->
  Qsum (map (ih T B) elems) == height (Qmax B (chain_bottom top elems)) (Qmin T top).
Proof.
  intros T B. induction elems as [|e t IH]; intros top C RT RB.
  - simpl. symmetry. apply height_zero. pose proof (Q.le_max_r B top). pose proof (Q.le_min_r T top). lra.
  - destruct C as (E & P & C).
    change (map (ih T B) (e :: t)) with (ih T B e :: map (ih T B) t). rewrite Qsum_cons.
    rewrite (IH (snd e) C); [|intros x Hx; apply RT; right; auto|intros x Hx; apply RB; right; auto].
    simpl chain_bottom. pose proof (chain_bottom_le _ _ C) as CB. set (bot := chain_bottom (snd e) t) in *.
    destruct (RT e (or_introl eq_refl)) as [T1|T1]; destruct (RB e (or_introl eq_refl)) as [B1|B1];
    unfold ih.
    + (* T below or at the bottom: element above T *)
      assert (I : inside T B e = false) by (apply inside_false; lra). rewrite I.
      assert (M : Qmin T (snd e) == T) by (apply Q.min_l; lra).
      assert (M' : Qmin T top == T) by (apply Q.min_l; lra).
      unfold height. rewrite M, M'. ring.
    + assert (I : inside T B e = false) by (apply inside_false; lra). rewrite I.
      assert (M : Qmin T (snd e) == T) by (apply Q.min_l; lra).
      assert (M' : Qmin T top == T) by (apply Q.min_l; lra).
      unfold height. rewrite M, M'. ring.
    + assert (I : inside T B e = true) by (apply inside_true; lra). rewrite I.
      assert (M : Qmin T (snd e) == snd e) by (apply Q.min_r; lra).
      assert (M' : Qmin T top == top) by (apply Q.min_r; lra).
      assert (X : Qmax B bot <= snd e) by (apply Q.max_lub; auto).
      rewrite (height_comp _ (Qmax B bot) _ _ (Qeq_refl _) M), (height_comp _ (Qmax B bot) _ _ (Qeq_refl _) M').
      rewrite !height_pos by lra. rewrite E. ring.
    + assert (I : inside T B e = false) by (apply inside_false; lra). rewrite I.
      assert (X : B <= Qmax B bot) by apply Q.le_max_l.
      rewrite (height_zero _ (Qmin T (snd e))), (height_zero _ (Qmin T top)); [ring| |].
      * pose proof (Q.le_min_r T top). lra.
      * pose proof (Q.le_min_r T (snd e)). lra.
Qed.

(** ** Volume and weight of the pile over the elements *)

Definition tiled (t : Q) (p : list section) (elems : list (Q * Q)) : Prop :=
  chain t elems /\ (forall s, In s p -> respected elems (s_top s) /\ respected elems (s_bottom s)).

Lemma chain_pos : forall elems top e, chain top elems -> In e elems -> snd e < fst e.
Proof.
  induction elems as [|h t IH]; intros top e C I; [destruct I|]. destruct C as (E & P & C).
  destruct I as [<-|I]; eauto.
Qed.

Lemma chain_range : forall elems top e, chain top elems -> In e elems ->
  fst e <= top /\ chain_bottom top elems <= snd e.
Proof.
  induction elems as [|h t IH]; intros top e C I; [destruct I|]. simpl. destruct C as (E & P & C).
  pose proof (chain_bottom_le _ _ C). destruct I as [<-|I]; [lra|]. specialize (IH _ _ C I). lra.
Qed.

(** every element of a tiling lies in a section *)
Lemma element_section : forall p t b elems e, proper p -> connected p = true -> pile_top p = Ok t -> pile_bottom p = Ok b ->
  chain t elems -> chain_bottom t elems == b -> (forall s, In s p -> respected elems (s_bottom s)) ->
  In e elems -> exists s, In s p /\ in_section s e.
Proof.
  intros p t b elems e P C T B CH CB R I.
  pose proof (chain_pos _ _ _ CH I) as PE. pose proof (chain_range _ _ _ CH I) as [RA RB].
  assert (G : forall q s0, proper (s0 :: q) -> connected (s0 :: q) = true -> fst e <= s_top s0 ->
     (forall s, In s (s0 :: q) -> respected elems (s_bottom s)) ->
     (exists z, pile_bottom (s0 :: q) = Ok z /\ z <= snd e) -> exists s, In s (s0 :: q) /\ in_section s e).
  { induction q as [|s1 q IH]; intros s0 P0 C0 U R0 (z & Z & LZ).
    - exists s0. split; [left; auto|]. unfold pile_bottom, last_section in Z. simpl in Z. inversion Z; subst.
      split; auto.
    - apply connected_cons in C0. destruct C0 as [E0 C0].
      destruct (R0 s0 (or_introl eq_refl) e I) as [H|H].
      + exists s0. split; [left; auto|]. split; auto.
      + destruct (IH s1) as (s & Is & X); auto.
        * intros x Hx; apply P0; right; auto.
        * lra.
        * intros; apply R0; right; auto.
        * exists z. split; auto. unfold pile_bottom in *. rewrite last_section_cons in Z. auto.
        * exists s. split; auto. right; auto. }
  destruct p as [|s0 q]; [discriminate|]. apply (G q s0); auto.
  - simpl in T. inversion T; subst. auto.
  - exists b. split; auto. lra.
Qed.

(** ** generic: a property looked up in disjoint objects sums over objects *)
Lemma section_value_sum : forall (f : section -> Q) p s e, proper p -> connected p = true -> In s p -> in_section s e ->
  Qsum (map (fun s' => if inside (s_top s') (s_bottom s') e then f s' else 0) p) == f s.
Proof.
  intros f p s e P C I (L & X & U). apply in_split in I. destruct I as (p1 & p2 & ->).
  rewrite map_app, Qsum_app. cbn [map]. rewrite Qsum_cons.
  assert (HI : inside (s_top s) (s_bottom s) e = true) by (apply inside_true; auto). rewrite HI.
  assert (Z : forall q, (forall s', In s' q -> In s' (p1 ++ s :: p2)) -> (forall s', In s' q -> s_top s' <= s_bottom s \/ s_top s <= s_bottom s') ->
    Qsum (map (fun s' => if inside (s_top s') (s_bottom s') e then f s' else 0) q) == 0).
  { intros q _ D. rewrite <- (Qsum_zero _ q). apply Qsum_ext. intros s' Hs'.
    assert (FI : inside (s_top s') (s_bottom s') e = false) by (apply inside_false; destruct (D s' Hs'); lra).
    rewrite FI. reflexivity. }
  rewrite (Z p1), (Z p2); [ring| | | |].
  - intros; apply in_or_app; right; right; auto.
  - intros s' Hs'. left.
    assert (Q1 : connected (s :: p2) = true).
    { clear - C. induction p1 as [|h p1 IH]; auto. apply IH. simpl app in C. destruct p1; simpl app in *; apply connected_cons in C; tauto. }
    assert (P1 : proper (s :: p2)) by (intros y Hy; apply P; apply in_or_app; right; auto).
    eapply connected_below; eauto.
  - intros; apply in_or_app; left; auto.
  - intros s' Hs'. right. 
    clear - P C Hs'. induction p1 as [|h p1 IH]; [destruct Hs'|].
    assert (Ct : connected (p1 ++ s :: p2) = true) by (simpl app in C; destruct p1; simpl app in *; apply connected_cons in C; tauto).
    destruct Hs' as [->|Hs'].
    + apply (connected_below (p1 ++ s :: p2) s'); auto. apply in_or_app; right; left; auto.
    + apply IH; auto. intros y Hy; apply P; right; auto.
Qed.

Lemma layer_value_sum : forall (f : layer -> Q) d g l e, exact_stack g d -> In l d ->
  l_bottom l <= snd e -> snd e < fst e -> fst e <= l_top l ->
  Qsum (map (fun l' => if inside (l_top l') (l_bottom l') e then f l' else 0) d) == f l.
Proof.
  intros f. induction d as [|h t IH]; intros g l e S I L X U; [destruct I|].
  destruct S as (A & B & S). cbn [map]. rewrite Qsum_cons. destruct I as [<-|I].
  - assert (HI : inside (l_top h) (l_bottom h) e = true) by (apply inside_true; auto). rewrite HI.
    assert (Z : Qsum (map (fun l' => if inside (l_top l') (l_bottom l') e then f l' else 0) t) == 0); [|rewrite Z; ring].
    rewrite <- (Qsum_zero _ t). apply Qsum_ext. intros l' Hl'. pose proof (exact_tops _ _ _ S Hl').
    assert (FI : inside (l_top l') (l_bottom l') e = false) by (apply inside_false; lra). rewrite FI. reflexivity.
  - pose proof (exact_tops _ _ _ S I).
    assert (HI : inside (l_top h) (l_bottom h) e = false) by (apply inside_false; lra). rewrite HI.
    rewrite (IH _ l e S I) by auto. ring.
Qed.

(** ** sums of NaN-aware values that are all defined *)
Lemma n_sum_some : forall A (f : A -> Q) (g : A -> nanQ) l, (forall x, In x l -> exists y, g x = Some y /\ y == f x) ->
  exists y, n_sum (map g l) = Some y /\ y == Qsum (map f l).
Proof.
  intros A f g l H. induction l as [|a l IH].
  - exists 0. split; reflexivity.
  - destruct IH as (y & E & Y); [intros; apply H; right; auto|].
    destruct (H a (or_introl eq_refl)) as (z & E' & Z).
    exists (z + y). split.
    + cbn [map]. unfold n_sum in *. simpl. rewrite E', E. reflexivity.
    + cbn [map]. rewrite Qsum_cons, Y, Z. reflexivity.
Qed.

Lemma combine_map_l : forall A B (f : A -> B) l, combine (map f l) l = map (fun x => (f x, x)) l.
Proof. induction l; simpl; auto. f_equal; auto. Qed.

Lemma volumes_map : forall f p elems, volumes f p elems =
  map (fun e => option_map (fun a => (fst e - snd e) * a) (lookup (section_objs f p) e None)) elems.
Proof.
  intros. unfold volumes. rewrite p2e_map, combine_map_l, map_map. reflexivity.
Qed.

Lemma pile_weight_elements : forall l p t b uw water elems, proper l -> make_pile l = Ok p ->
  pile_top p = Ok t -> pile_bottom p = Ok b -> chain t elems -> chain_bottom t elems == b ->
  (forall s, In s p -> respected elems (s_top s) /\ respected elems (s_bottom s)) -> respected elems water ->
  exists w, effective_pile_weight uw water p elems = Some w /\
    w == Qsum (map (fun s => s_area s * (uw * height (Qmax (s_bottom s) water) (s_top s)
                                         + (uw - 10) * height (s_bottom s) (Qmin (s_top s) water))) l).
Proof.
  intros l p t b uw water elems P M T B CH CB R W.
  destruct (accepted_facts l p P M) as (Pp & C & _).
  destruct (pile_fills l p P M) as (PM & _).
  unfold effective_pile_weight. rewrite volumes_map, combine_map_l, map_map. cbn [fst snd].
  set (coefw := fun (e : Q * Q) => if Qle_bool (fst e) water then uw - 10 else uw).
  destruct (n_sum_some _ (fun e => Qsum (map (fun s => if inside (s_top s) (s_bottom s) e then (fst e - snd e) * s_area s * coefw e else 0) p))
    (fun e => option_map (fun v => v * coefw e) (option_map (fun a => (fst e - snd e) * a) (lookup (section_objs s_area p) e None))) elems) as (w & Ew & W').
  { intros e Ie. destruct (element_section p t b elems e Pp C T B CH CB (fun s Hs => proj2 (R s Hs)) Ie) as (s & Is & IS).
    rewrite (section_lookup _ s_area p s e Pp C Is IS). simpl. eexists. split; [reflexivity|].
    rewrite (section_value_sum (fun s => (fst e - snd e) * s_area s * coefw e) p s e Pp C Is IS). reflexivity. }
  exists w. split; [exact Ew|]. rewrite W'. rewrite Qsum_swap.
  rewrite (Qsum_perm _ _ _ _ PM). apply Qsum_ext. intros s Hs.
  destruct (R s Hs) as [RT RB].
  (* split according to water *)
  assert (SP : Qsum (map (fun e => if inside (s_top s) (s_bottom s) e then (fst e - snd e) * s_area s * coefw e else 0) elems) ==
     Qsum (map (fun e => s_area s * uw * ih (s_top s) (Qmax (s_bottom s) water) e + s_area s * (uw - 10) * ih (Qmin (s_top s) water) (s_bottom s) e) elems)).
  { apply Qsum_ext. intros e Ie. pose proof (chain_pos _ _ _ CH Ie) as PE. unfold ih, coefw.
    destruct (inside (s_top s) (s_bottom s) e) eqn:I.
    - apply inside_true in I. destruct I as [I1 I2]. destruct (W e Ie) as [W1|W1].
      + assert (J1 : inside (s_top s) (Qmax (s_bottom s) water) e = true) by (apply inside_true; split; auto; apply Q.max_lub; auto).
        assert (J2 : inside (Qmin (s_top s) water) (s_bottom s) e = false) by (apply inside_false; left; pose proof (Q.le_min_r (s_top s) water); lra).
        rewrite J1, J2. assert (J3 : Qle_bool (fst e) water = false) by (apply Qleb_false; lra). rewrite J3. ring.
      + assert (J1 : inside (s_top s) (Qmax (s_bottom s) water) e = false) by (apply inside_false; right; pose proof (Q.le_max_r (s_bottom s) water); lra).
        assert (J2 : inside (Qmin (s_top s) water) (s_bottom s) e = true) by (apply inside_true; split; auto; apply Q.min_glb; auto).
        rewrite J1, J2. assert (J3 : Qle_bool (fst e) water = true) by (apply Qleb_true; lra). rewrite J3. ring.
    - apply inside_false in I.
      assert (J1 : inside (s_top s) (Qmax (s_bottom s) water) e = false).
      { apply inside_false. destruct I; auto. right. pose proof (Q.le_max_l (s_bottom s) water). lra. }
      assert (J2 : inside (Qmin (s_top s) water) (s_bottom s) e = false).
      { apply inside_false. destruct I; auto. left. pose proof (Q.le_min_l (s_top s) water). lra. }
      rewrite J1, J2. ring. }
  rewrite SP, Qsum_plus, !Qsum_scal.
  assert (RM : respected elems (Qmax (s_bottom s) water)).
  { intros e Ie. destruct (RB e Ie), (W e Ie); destruct (Q.max_spec (s_bottom s) water) as [[? E]|[? E]]; rewrite E; auto. }
  assert (RN : respected elems (Qmin (s_top s) water)).
  { intros e Ie. destruct (RT e Ie), (W e Ie); destruct (Q.min_spec (s_top s) water) as [[? E]|[? E]]; rewrite E; auto. }
  rewrite (interval_sum _ _ elems t CH RT RM), (interval_sum _ _ elems t CH RN RB).
  destruct (pile_range l p t b P M T B s Hs) as [S1 S2].
  assert (X1 : Qmax (Qmax (s_bottom s) water) (chain_bottom t elems) == Qmax (s_bottom s) water).
  { apply Q.max_l. pose proof (Q.le_max_l (s_bottom s) water). lra. }
  assert (X2 : Qmin (s_top s) t == s_top s) by (apply Q.min_l; auto).
  assert (X3 : Qmax (s_bottom s) (chain_bottom t elems) == s_bottom s) by (apply Q.max_l; lra).
  assert (X4 : Qmin (Qmin (s_top s) water) t == Qmin (s_top s) water).
  { apply Q.min_l. pose proof (Q.le_min_l (s_top s) water). lra. }
  rewrite (height_comp _ _ _ _ X1 X2), (height_comp _ _ _ _ X3 X4). ring.
Qed.

Lemma pile_volume_elements : forall l p t b elems, proper l -> make_pile l = Ok p ->
  pile_top p = Ok t -> pile_bottom p = Ok b -> chain t elems -> chain_bottom t elems == b ->
  (forall s, In s p -> respected elems (s_top s) /\ respected elems (s_bottom s)) ->
  exists v, n_sum (volumes s_area p elems) = Some v /\ v == pile_volume p.
Proof.
  intros l p t b elems P M T B CH CB R.
  destruct (accepted_facts l p P M) as (Pp & C & _).
  rewrite volumes_map.
  destruct (n_sum_some _ (fun e => Qsum (map (fun s => s_area s * ih (s_top s) (s_bottom s) e) p))
    (fun e => option_map (fun a => (fst e - snd e) * a) (lookup (section_objs s_area p) e None)) elems) as (w & Ew & W').
  { intros e Ie. destruct (element_section p t b elems e Pp C T B CH CB (fun s Hs => proj2 (R s Hs)) Ie) as (s & Is & IS).
    rewrite (section_lookup _ s_area p s e Pp C Is IS). simpl. eexists. split; [reflexivity|].
    rewrite <- (section_value_sum (fun s => (fst e - snd e) * s_area s) p s e Pp C Is IS).
    apply Qsum_ext. intros s' _. unfold ih. destruct (inside _ _ e); ring. }
  exists w. split; [exact Ew|]. rewrite W', Qsum_swap. unfold pile_volume. apply Qsum_ext. intros s Hs.
  rewrite Qsum_scal. destruct (R s Hs) as [RT RB]. rewrite (interval_sum _ _ elems t CH RT RB).
  destruct (pile_range l p t b P M T B s Hs) as [S1 S2]. pose proof (Pp s Hs).
  assert (X2 : Qmin (s_top s) t == s_top s) by (apply Q.min_l; auto).
  assert (X3 : Qmax (s_bottom s) (chain_bottom t elems) == s_bottom s) by (apply Q.max_l; lra).
  rewrite (height_comp _ _ _ _ X3 X2), height_pos by lra. unfold s_length. reflexivity.
Qed.

(** ** Entrapped soil *)


Lemma filter_one : forall A (P : A -> bool) l, (length (filter P l) <= 1)%nat ->
  (forall x, In x l -> P x = false) \/
  exists l1 x l2, l = l1 ++ x :: l2 /\ P x = true /\ (forall y, In y l1 -> P y = false) /\ (forall y, In y l2 -> P y = false).
Proof.
  intros A P. induction l as [|h t IH]; intros L; [left; intros x []|]. simpl in L.
  destruct (P h) eqn:E.
  - right. exists [], h, t. split; auto. split; auto. split; [intros y []|].
    intros y Hy. destruct (P y) eqn:Y; auto. exfalso.
    assert (In y (filter P t)) by (apply filter_In; auto). destruct (filter P t); simpl in *; [tauto|lia].
  - destruct (IH L) as [H|(l1 & x & l2 & -> & X & H1 & H2)].
    + left. intros x [<-|Hx]; auto.
    + right. exists (h :: l1), x, l2. split; auto. split; auto. split; auto. intros y [<-|Hy]; auto.
Qed.

Lemma filter_length_perm : forall A (P : A -> bool) l l', Permutation l l' -> length (filter P l) = length (filter P l').
Proof.
  intros A P l l' H. induction H; simpl; auto.
  - destruct (P x); simpl; auto.
  - destruct (P x), (P y); auto.
  - congruence.
Qed.

Lemma stack_filter_one : forall e d g, exact_stack g d -> snd e < fst e ->
  (length (filter (fun l => inside (l_top l) (l_bottom l) e) d) <= 1)%nat.
Proof.
  intros e. induction d as [|h t IH]; intros g S PE; simpl; [lia|]. destruct S as (A & B & S).
  destruct (inside (l_top h) (l_bottom h) e) eqn:I; [|eapply IH; eauto].
  assert (filter (fun l => inside (l_top l) (l_bottom l) e) t = []) as ->; [|simpl; lia].
  assert (N : forall l, In l t -> inside (l_top l) (l_bottom l) e = false).
  { intros l Hl. pose proof (exact_tops _ _ _ S Hl). apply inside_true in I. apply inside_false. lra. }
  clear - N. induction t as [|a t IH]; auto. simpl. rewrite (N a (or_introl eq_refl)). apply IH. intros; apply N; right; auto.
Qed.

Lemma fold_none : forall A B (P : A -> bool) (f : A -> B) l acc, (forall x, In x l -> P x = false) ->
  fold_left (fun acc x => if P x then f x else acc) l acc = acc.
Proof. intros A B P f. induction l as [|h t IH]; intros acc H; auto. simpl. rewrite (H h (or_introl eq_refl)). apply IH. intros; apply H; right; auto. Qed.

Lemma layer_fold : forall (g : layer -> Q) (P : layer -> bool) L, (length (filter P L) <= 1)%nat ->
  exists y, fold_left (fun acc l => if P l then Some (g l) else acc) L (Some 0) = Some y /\
    y == Qsum (map (fun l => if P l then g l else 0) L).
Proof.
  intros g P L H.
  assert (Z : forall M, (forall x, In x M -> P x = false) -> Qsum (map (fun l => if P l then g l else 0) M) == 0).
  { intros M N. rewrite <- (Qsum_zero _ M). apply Qsum_ext. intros x Hx. rewrite (N x Hx). reflexivity. }
  destruct (filter_one _ P L H) as [N|(l1 & x & l2 & -> & X & N1 & N2)].
  - exists 0. rewrite fold_none by auto. split; auto. rewrite Z by auto. reflexivity.
  - exists (g x). rewrite fold_left_app. simpl. rewrite X, (fold_none _ _ P (fun l => Some (g l)) l2) by auto.
    split; auto. rewrite map_app, Qsum_app. cbn [map]. rewrite Qsum_cons, X, (Z l1 N1), (Z l2 N2). ring.
Qed.

Lemma entrapped_weight : forall l p t b water layers d g elems, proper l -> make_pile l = Ok p ->
  pile_top p = Ok t -> pile_bottom p = Ok b -> chain t elems -> chain_bottom t elems == b ->
  (forall s, In s p -> respected elems (s_top s) /\ respected elems (s_bottom s)) ->
  Permutation layers d -> exact_stack g d ->
  (forall y, In y d -> respected elems (l_top y) /\ respected elems (l_bottom y)) -> respected elems water ->
  exists w, entrapped_soil_weight water p layers elems = Some w /\
    w == Qsum (map (fun s => Qsum (map (fun y => s_entrapped s *
           (l_weight y * overlap_dry water s y + (l_weight y - 10) * overlap_wet water s y)) layers)) l).
Proof.
  intros l p t b water layers d g elems P M T B CH CB R PL S RL0 W.
  assert (RL : forall y, In y layers -> respected elems (l_top y) /\ respected elems (l_bottom y)).
  { intros y Hy. apply RL0. eapply Permutation_in; eauto. }
  destruct (accepted_facts l p P M) as (Pp & C & _).
  destruct (pile_fills l p P M) as (PM & _).
  unfold entrapped_soil_weight. rewrite volumes_map, combine_map_l, map_map. cbn [fst snd].
  set (coefw := fun (e : Q * Q) (y : layer) => if Qltb water (fst e) then l_weight y else l_weight y - 10).
  set (term := fun (e : Q * Q) (s : section) (y : layer) =>
     if inside (s_top s) (s_bottom s) e then (if inside (l_top y) (l_bottom y) e then coefw e y * ((fst e - snd e) * s_entrapped s) else 0) else 0).
  match goal with |- context [n_sum (map ?G elems)] =>
    destruct (n_sum_some _ (fun e => Qsum (map (fun s => Qsum (map (term e s) layers)) p)) G elems) as (w & Ew & W') end.
  { intros e Ie. destruct (element_section p t b elems e Pp C T B CH CB (fun s Hs => proj2 (R s Hs)) Ie) as (s & Is & IS).
    pose proof (chain_pos _ _ _ CH Ie) as PE.
    rewrite (section_lookup _ s_entrapped p s e Pp C Is IS). simpl option_map.
    assert (SV : Qsum (map (fun s => Qsum (map (term e s) layers)) p) ==
       Qsum (map (fun y => if inside (l_top y) (l_bottom y) e then coefw e y * ((fst e - snd e) * s_entrapped s) else 0) layers)).
    { rewrite <- (section_value_sum (fun s => Qsum (map (fun y => if inside (l_top y) (l_bottom y) e then coefw e y * ((fst e - snd e) * s_entrapped s) else 0) layers)) p s e Pp C Is IS).
      apply Qsum_ext. intros s' _. unfold term. destruct (inside (s_top s') (s_bottom s') e); [reflexivity|]. apply Qsum_zero. }
    destruct (layer_fold (fun y => coefw e y * ((fst e - snd e) * s_entrapped s)) (fun y => inside (l_top y) (l_bottom y) e) layers)
      as (y & Fy & Y).
    - rewrite (filter_length_perm _ _ _ _ PL). eapply stack_filter_one; eauto.
    - exists y. split; [exact Fy|]. rewrite SV. exact Y. }
  exists w. split; [exact Ew|]. rewrite W', Qsum_swap. rewrite (Qsum_perm _ _ _ _ PM).
  apply Qsum_ext. intros s Hs. rewrite Qsum_swap. apply Qsum_ext. intros y Hy.
  destruct (R s Hs) as [RT RB]. destruct (RL y Hy) as [LT LB].
  assert (SP : Qsum (map (fun e => term e s y) elems) ==
    Qsum (map (fun e => s_entrapped s * l_weight y * ih (Qmin (s_top s) (l_top y)) (Qmax (Qmax (s_bottom s) (l_bottom y)) water) e +
                        s_entrapped s * (l_weight y - 10) * ih (Qmin (Qmin (s_top s) (l_top y)) water) (Qmax (s_bottom s) (l_bottom y)) e) elems)).
  { apply Qsum_ext. intros e Ie. pose proof (chain_pos _ _ _ CH Ie) as PE. unfold ih, term, coefw.
    assert (IM : inside (Qmin (s_top s) (l_top y)) (Qmax (s_bottom s) (l_bottom y)) e = inside (s_top s) (s_bottom s) e && inside (l_top y) (l_bottom y) e).
    { apply eq_true_iff_eq. rewrite andb_true_iff, !inside_true, Q.min_glb_iff, Q.max_lub_iff. tauto. }
    destruct (W e Ie) as [W1|W1].
    - assert (J1 : inside (Qmin (s_top s) (l_top y)) (Qmax (Qmax (s_bottom s) (l_bottom y)) water) e = inside (Qmin (s_top s) (l_top y)) (Qmax (s_bottom s) (l_bottom y)) e).
      { apply eq_true_iff_eq. rewrite !inside_true, (Q.max_lub_iff _ water). tauto. }
      assert (J2 : inside (Qmin (Qmin (s_top s) (l_top y)) water) (Qmax (s_bottom s) (l_bottom y)) e = false).
      { apply inside_false. left. pose proof (Q.le_min_r (Qmin (s_top s) (l_top y)) water). lra. }
      assert (J3 : Qltb water (fst e) = true) by (apply Qltb_true; lra).
      rewrite J1, J2, J3, IM. destruct (inside (s_top s) (s_bottom s) e), (inside (l_top y) (l_bottom y) e); simpl; ring.
    - assert (J1 : inside (Qmin (s_top s) (l_top y)) (Qmax (Qmax (s_bottom s) (l_bottom y)) water) e = false).
      { apply inside_false. right. pose proof (Q.le_max_r (Qmax (s_bottom s) (l_bottom y)) water). lra. }
      assert (J2 : inside (Qmin (Qmin (s_top s) (l_top y)) water) (Qmax (s_bottom s) (l_bottom y)) e = inside (Qmin (s_top s) (l_top y)) (Qmax (s_bottom s) (l_bottom y)) e).
      { apply eq_true_iff_eq. rewrite !inside_true, (Q.min_glb_iff _ water). tauto. }
      assert (J3 : Qltb water (fst e) = false) by (apply Qltb_false; lra).
      rewrite J1, J2, J3, IM. destruct (inside (s_top s) (s_bottom s) e), (inside (l_top y) (l_bottom y) e); simpl; ring. }
  rewrite SP, Qsum_plus, !Qsum_scal.
  assert (RMAX : forall a c, respected elems a -> respected elems c -> respected elems (Qmax a c)).
  { intros a c Ra Rc e Ie. destruct (Ra e Ie), (Rc e Ie); destruct (Q.max_spec a c) as [[? E]|[? E]]; rewrite E; auto. }
  assert (RMIN : forall a c, respected elems a -> respected elems c -> respected elems (Qmin a c)).
  { intros a c Ra Rc e Ie. destruct (Ra e Ie), (Rc e Ie); destruct (Q.min_spec a c) as [[? E]|[? E]]; rewrite E; auto. }
  rewrite (interval_sum _ _ elems t CH) by auto. rewrite (interval_sum _ _ elems t CH) by auto.
  destruct (pile_range l p t b P M T B s Hs) as [S1 S2].
  assert (X1 : Qmax (Qmax (Qmax (s_bottom s) (l_bottom y)) water) (chain_bottom t elems) == Qmax (Qmax (s_bottom s) (l_bottom y)) water).
  { apply Q.max_l. pose proof (Q.le_max_l (s_bottom s) (l_bottom y)). pose proof (Q.le_max_l (Qmax (s_bottom s) (l_bottom y)) water). lra. }
  assert (X2 : Qmin (Qmin (s_top s) (l_top y)) t == Qmin (s_top s) (l_top y)).
  { apply Q.min_l. pose proof (Q.le_min_l (s_top s) (l_top y)). lra. }
  assert (X3 : Qmax (Qmax (s_bottom s) (l_bottom y)) (chain_bottom t elems) == Qmax (s_bottom s) (l_bottom y)).
  { apply Q.max_l. pose proof (Q.le_max_l (s_bottom s) (l_bottom y)). lra. }
  assert (X4 : Qmin (Qmin (Qmin (s_top s) (l_top y)) water) t == Qmin (Qmin (s_top s) (l_top y)) water).
  { apply Q.min_l. pose proof (Q.le_min_l (s_top s) (l_top y)). pose proof (Q.le_min_l (Qmin (s_top s) (l_top y)) water). lra. }
  rewrite (height_comp _ _ _ _ X1 X2), (height_comp _ _ _ _ X3 X4). unfold overlap_dry, overlap_wet. ring.
Qed.
