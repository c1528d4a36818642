(** Lemmas on the number of nodes of the mesh. *)
From Coq Require Import List Bool Arith ZArith QArith Qabs Lia Lqa Sorted.
From Verif Require Import Base PileModel PileSpec MeshModel MeshSpec MeshProofs FewSpec CreateModel.
Import ListNotations.
Local Open Scope Q_scope.

Lemma divider_parts : forall s c, 0 < s -> 0 < c -> exists d, divider s c = Some d /\ parts c s d.
Proof.
  intros s c Hs Hc. destruct (divider_spec s c Hs Hc) as (d & D & D1 & DC & DM).
  exists d. split; auto. split; auto. split; [apply Qdiv_le_iff in DC; [lra|apply Qnat_pos; auto]|].
  intros k K1 KC. destruct (Nat.le_gt_cases d k) as [|L]; auto. exfalso.
  specialize (DM k (conj K1 L)). pose proof (Qnat_pos k K1) as P.
  assert (s / Qnat k <= c) by (apply Qdiv_le_iff; lra). lra.
Qed.

Lemma parts_unique : forall c s s' n n', s == s' -> parts c s n -> parts c s' n' -> n = n'.
Proof.
  intros c s s' n n' E (A & B & C) (A' & B' & C').
  apply Nat.le_antisymm; [apply C|apply C']; auto; lra.
Qed.

Lemma refine_count : forall z c m, 0 < c -> desc z -> refine z c = Some m ->
  exists ns, Forall2 (parts c) (gaps z) ns /\ length m = (Nat.min 1 (length z) + total ns)%nat.
Proof.
  induction z as [|a t IH]; intros c m C D R.
  - inversion R; subst. exists []. split; [constructor|reflexivity].
  - destruct t as [|b t].
    + inversion R; subst. exists []. split; [constructor|reflexivity].
    + rewrite refine_cons2 in R. inversion D as [|? ? Dt F]; subst.
      assert (AB : 0 < a - b) by (inversion F; subst; unfold gtQ in *; lra).
      destruct (divider_parts (a - b) c AB C) as (d & Hd & P). rewrite Hd in R.
      destruct (refine (b :: t) c) as [r|] eqn:Rt; [|discriminate].
      assert (m = (a :: subdivide a (a - b) d) ++ r) as -> by congruence. clear R.
      destruct (IH c r C Dt Rt) as (ns & Fn & L). exists (d :: ns).
      split; [constructor; auto|]. rewrite app_length, L. cbn [length total fold_right].
      unfold subdivide. rewrite map_length, seq_length. destruct P as (P1 & _).
      change (fold_right plus 0%nat ns) with (total ns).
      cbn [Nat.min]. replace (Nat.min 0 (length t)) with 0%nat by reflexivity. lia.
Qed.

Lemma subdivide_contains : forall a s d y, contains (subdivide a s d) y <->
  exists k, (1 <= k < d)%nat /\ y == a - Qnat k * (s / Qnat d).
Proof.
  intros a s d y. unfold contains, subdivide. split.
  - intros (u & I1 & E). apply in_map_iff in I1. destruct I1 as (k & Ek & I1). apply in_seq in I1.
    exists k. split; [lia|]. rewrite <- E, <- Ek. reflexivity.
  - intros (k & K & E). exists (a - Qnat k * (s / Qnat d)). split; [|symmetry; auto].
    apply in_map_iff. exists k. split; auto. apply in_seq. lia.
Qed.

(** The nodes: the given elevations, and the points that divide the distance of two consecutive ones. *)
Lemma refine_members : forall z c m, 0 < c -> desc z -> refine z c = Some m -> forall y, contains m y <->
  contains z y \/ exists i a b n k, nth_error z i = Some a /\ nth_error z (S i) = Some b /\ parts c (a - b) n /\
    (1 <= k < n)%nat /\ y == a - Qnat k * ((a - b) / Qnat n).
Proof.
  induction z as [|a t IH]; intros c m C D R y.
  - inversion R; subst. split; [auto|]. intros [H|(i & u & v & n & k & H & _)]; auto. destruct i; discriminate.
  - destruct t as [|b t].
    + inversion R; subst. split; [auto|]. intros [H|(i & u & v & n & k & _ & H & _)]; auto. destruct i; discriminate.
    + rewrite refine_cons2 in R. inversion D as [|? ? Dt F]; subst.
      assert (AB : 0 < a - b) by (inversion F; subst; unfold gtQ in *; lra).
      destruct (divider_parts (a - b) c AB C) as (d & Hd & P). rewrite Hd in R.
      destruct (refine (b :: t) c) as [r|] eqn:Rt; [|discriminate].
      assert (m = (a :: subdivide a (a - b) d) ++ r) as -> by congruence. clear R.
      rewrite contains_app, contains_cons, subdivide_contains, (IH c r C Dt Rt y), (contains_cons a).
      split.
      * intros [[E|(k & K & E)]|[H|(i & u & v & n & k & Hu & Hv & Pn & K & E)]]; auto.
        -- right. exists O, a, b, d, k. repeat split; auto; lia || apply P.
        -- right. exists (S i), u, v, n, k. split; [exact Hu|]. split; [exact Hv|]. split; [exact Pn|]. split; auto.
      * intros [[E|H]|(i & u & v & n & k & Hu & Hv & Pn & K & E)]; auto.
        destruct i as [|i].
        -- cbn in Hu, Hv. inversion Hu; inversion Hv; subst u v. left; right. exists k.
           assert (n = d) as -> by (eapply parts_unique; [reflexivity|eauto|eauto]). auto.
        -- right; right. exists i, u, v, n, k. auto.
Qed.

Lemma mesh_is_refined : forall p b s x c m, 0 < c -> mesh p b s x c = Some m ->
  exists m', refine (primary p b s x) c = Some m' /\ Forall2 Qeq m m' /\ (forall y, contains m' y <-> contains m y).
Proof.
  intros p b s x c m C M.
  destruct (refine_steps (primary p b s x) c 0 C (Qle_refl 0) (half_pos c C)
              (desc_steps0 _ (primary_desc p b s x))) as (m' & R & Sm & _).
  destruct (refine_secondary _ _ _ R) as (r & S2 & Mm).
  unfold mesh in M. rewrite S2 in M. inversion M; subst m.
  assert (CE : forall y, contains m' y <-> contains (unique_desc (primary p b s x ++ r)) y)
    by (intros y; rewrite unique_desc_contains; apply Mm).
  exists m'. split; auto. split; auto.
  apply desc_unique; [apply unique_desc_desc|eapply steps_desc; [|eauto]; apply Qle_refl|].
  intros y. rewrite CE. tauto.
Qed.

Lemma same_length : forall (l l' : list Q), Forall2 Qeq l l' -> length l = length l'.
Proof. induction 1; cbn; auto. Qed.

Lemma wanted_primary : forall p b s x y, contains (primary p b s x) y <-> wanted p b s x y.
Proof. intros. apply primary_requested. Qed.

Lemma lists_primary : forall p b s x l, lists (wanted p b s x) l -> Forall2 Qeq (primary p b s x) l.
Proof.
  intros p b s x l [D H]. apply desc_unique; [apply primary_desc|apply desc_nth; auto|].
  intros y. rewrite H. apply wanted_primary.
Qed.

Lemma gaps_compat : forall l l', Forall2 Qeq l l' -> Forall2 Qeq (gaps l) (gaps l').
Proof.
  intros l l' F. induction F as [|a a' t t' E F IH]; [constructor|].
  destruct F as [|b b' t t' E' F]; [constructor|].
  change (gaps (a :: b :: t)) with ((a - b) :: gaps (b :: t)).
  change (gaps (a' :: b' :: t')) with ((a' - b') :: gaps (b' :: t')).
  constructor; [rewrite E, E'; reflexivity|exact IH].
Qed.

Lemma parts_compat : forall c s s' n, s == s' -> parts c s n -> parts c s' n.
Proof.
  intros c s s' n E (A & B & C). split; auto. split; [lra|]. intros k K H. apply C; auto. lra.
Qed.

Lemma parts_all_compat : forall c l l' ns, Forall2 Qeq l l' -> Forall2 (parts c) l ns -> Forall2 (parts c) l' ns.
Proof.
  intros c l l' ns F. revert ns. induction F as [|a a' t t' E F IH]; intros ns G; inversion G; subst; constructor; auto.
  eapply parts_compat; eauto.
Qed.

Lemma mesh_count : forall p b s x c m l, 0 < c -> mesh p b s x c = Some m -> lists (wanted p b s x) l ->
  exists ns, Forall2 (parts c) (gaps l) ns /\ length m = (Nat.min 1 (length l) + total ns)%nat.
Proof.
  intros p b s x c m l C M L. apply lists_primary in L.
  destruct (mesh_is_refined _ _ _ _ _ _ C M) as (m' & R & F & _).
  destruct (refine_count _ _ _ C (primary_desc p b s x) R) as (ns & G & N).
  exists ns. split; [eapply parts_all_compat; [apply gaps_compat; eauto|auto]|].
  rewrite (same_length _ _ F), N, (same_length _ _ L). reflexivity.
Qed.

(** ** Positions *)
Lemma contains_nth : forall l y, contains l y -> exists i u, nth_error l i = Some u /\ u == y.
Proof.
  intros l y (u & H & E). apply In_nth_error in H. destruct H as [i H]. eauto.
Qed.

Lemma within_far : forall c w k i u v, within c w -> nth_error w i = Some u -> nth_error w (i + k) = Some v ->
  u - v <= c * Qnat k.
Proof.
  intros c w k. induction k as [|k IH]; intros i u v W Hu Hv.
  - rewrite Nat.add_0_r in Hv. rewrite Hu in Hv. inversion Hv; subst.
    assert (Z0 : Qnat 0 == 0) by reflexivity. rewrite Z0. lra.
  - replace (i + S k)%nat with (S (i + k)) in Hv by lia.
    destruct (nth_error w (i + k)) as [q|] eqn:Hq.
    2:{ apply nth_error_None in Hq. assert (nth_error w (S (i + k)) = None) by (apply nth_error_None; lia). congruence. }
    specialize (IH i u q W Hu Hq). specialize (W (i + k)%nat q v Hq Hv).
    rewrite (Qnat_S k). lra.
Qed.

Lemma positions : forall c w a b i u j v n, within c w -> strictly_descending w ->
  nth_error w i = Some u -> u == a -> nth_error w j = Some v -> v == b -> 0 < a - b -> parts c (a - b) n ->
  (i + n <= j)%nat.
Proof.
  intros c w a b i u j v n W D Hu Ea Hv Eb AB (P1 & P2 & P3).
  assert (i < j)%nat as L.
  { destruct (Nat.lt_total i j) as [|[->|L]]; auto; exfalso.
    - rewrite Hu in Hv. inversion Hv; subst. lra.
    - specialize (D j i v u L Hv Hu). lra. }
  pose proof (within_far c w (j - i) i u v W Hu) as F. replace (i + (j - i))%nat with j in F by lia.
  specialize (F Hv). specialize (P3 (j - i)%nat ltac:(lia) ltac:(lra)). lia.
Qed.

Lemma fewest_from : forall c w z ns i u a t, within c w -> strictly_descending w -> desc z ->
  (forall y, contains z y -> contains w y) -> Forall2 (parts c) (gaps z) ns ->
  z = a :: t -> nth_error w i = Some u -> u == a -> (i + 1 + total ns <= length w)%nat.
Proof.
  intros c w z. induction z as [|h z IH]; intros ns i u a t W D Dz Sub F E Hu Eu; [discriminate|].
  inversion E; subst h z. destruct t as [|b t].
  - cbn in F. inversion F; subst. cbn. assert (i < length w)%nat by (apply nth_error_Some; congruence). lia.
  - change (gaps (a :: b :: t)) with ((a - b) :: gaps (b :: t)) in F.
    inversion F as [|? n ? ns' P F']; subst.
    inversion Dz as [|? ? Dt Fz]; subst.
    assert (AB : 0 < a - b) by (inversion Fz; subst; unfold gtQ in *; lra).
    destruct (contains_nth w b) as (j & v & Hv & Ev).
    { apply Sub, contains_In. right; left; reflexivity. }
    pose proof (positions c w a b i u j v n W D Hu Eu Hv Ev AB P) as L.
    specialize (IH ns' j v b t W D Dt).
    assert (Sub' : forall y, contains (b :: t) y -> contains w y).
    { intros y Hy. apply Sub. apply contains_cons. right; auto. }
    specialize (IH Sub' F' eq_refl Hv Ev). cbn [total fold_right]. fold (total ns'). lia.
Qed.

Lemma refine_fewest : forall c w z m, 0 < c -> desc z -> refine z c = Some m ->
  within c w -> strictly_descending w -> (forall y, contains z y -> contains w y) -> (length m <= length w)%nat.
Proof.
  intros c w z m C Dz R W D Sub. destruct (refine_count z c m C Dz R) as (ns & F & N). rewrite N.
  destruct z as [|a t].
  - cbn in F. inversion F; subst. cbn. lia.
  - destruct (contains_nth w a) as (i & u & Hu & Eu); [apply Sub, contains_In; left; reflexivity|].
    pose proof (fewest_from c w (a :: t) ns i u a t W D Dz Sub F eq_refl Hu Eu) as L. cbn [length Nat.min]. lia.
Qed.

Lemma mesh_fewest : forall p b s x c m w, 0 < c -> mesh p b s x c = Some m ->
  strictly_descending w -> (forall y, wanted p b s x y -> contains w y) -> within c w -> (length m <= length w)%nat.
Proof.
  intros p b s x c m w C M D Sub W.
  destruct (mesh_is_refined _ _ _ _ _ _ C M) as (m' & R & F & _).
  rewrite (same_length _ _ F). apply (refine_fewest c w (primary p b s x) m'); auto; [apply primary_desc|].
  intros y Hy. apply Sub, wanted_primary. auto.
Qed.

Lemma mesh_wanted : forall p b s x c m y, 0 < c -> mesh p b s x c = Some m -> wanted p b s x y -> contains m y.
Proof.
  intros p b s x c m y C M Y. destruct (mesh_is_refined _ _ _ _ _ _ C M) as (m' & R & _ & E).
  apply E. apply (refine_members _ _ _ C (primary_desc p b s x) R). left. apply wanted_primary; auto.
Qed.

Lemma mesh_within : forall p b s x c m, 0 < c -> mesh p b s x c = Some m -> within c m.
Proof.
  intros p b s x c m C M i u v Hu Hv. apply (mesh_spacing p b s x c m i u v C M Hu Hv).
Qed.

(** Two meshes, the second with a smaller coarseness and more elevations. *)
Lemma mesh_more : forall p b s x c m p' b' s' x' c' m', 0 < c' -> c' <= c ->
  (forall y, wanted p b s x y -> wanted p' b' s' x' y) ->
  mesh p b s x c = Some m -> mesh p' b' s' x' c' = Some m' -> (length m <= length m')%nat.
Proof.
  intros p b s x c m p' b' s' x' c' m' C' CC Sub M M'.
  apply (mesh_fewest p b s x c m m'); auto; [lra|apply (mesh_descending _ _ _ _ _ _ M')| |].
  - intros y Y. apply (mesh_wanted p' b' s' x' c' m' y C' M'). auto.
  - intros i u v Hu Hv. pose proof (mesh_within _ _ _ _ _ _ C' M' i u v Hu Hv). lra.
Qed.

(** ** The nodes between two neighbours *)
Lemma consecutive_neighbours : forall l i a b, desc l -> nth_error l i = Some a -> nth_error l (S i) = Some b ->
  neighbours (contains l) a b.
Proof.
  intros l i a b D Ha Hb. pose proof (proj1 (desc_nth l) D) as Dn.
  split; [apply contains_In; eapply nth_error_In; eauto|].
  split; [apply contains_In; eapply nth_error_In; eauto|].
  split; [apply (Dn i (S i) a b); auto|].
  intros y L U Y. apply contains_nth in Y. destruct Y as (j & u & Hu & Eu).
  destruct (Nat.le_gt_cases j i) as [J|J].
  - destruct (Nat.eq_dec j i) as [->|N]; [rewrite Ha in Hu; inversion Hu; subst; lra|].
    specialize (Dn j i u a ltac:(lia) Hu Ha). lra.
  - destruct (Nat.eq_dec j (S i)) as [->|N]; [rewrite Hb in Hu; inversion Hu; subst; lra|].
    specialize (Dn (S i) j b u ltac:(lia) Hb Hu). lra.
Qed.

Lemma neighbours_consecutive : forall l a b, desc l -> neighbours (contains l) a b ->
  exists i u v, nth_error l i = Some u /\ nth_error l (S i) = Some v /\ u == a /\ v == b.
Proof.
  intros l a b D (A & B & AB & N). pose proof (proj1 (desc_nth l) D) as Dn.
  apply contains_nth in A, B. destruct A as (i & u & Hu & Eu), B as (j & v & Hv & Ev).
  assert (L : (i < j)%nat).
  { destruct (Nat.lt_total i j) as [|[->|L]]; auto; exfalso.
    - rewrite Hu in Hv. inversion Hv; subst. lra.
    - specialize (Dn j i v u L Hv Hu). lra. }
  destruct (Nat.eq_dec j (S i)) as [->|NE]; [exists i, u, v; auto|]. exfalso.
  destruct (nth_error l (S i)) as [q|] eqn:Hq.
  2:{ apply nth_error_None in Hq. assert (j < length l)%nat by (apply nth_error_Some; congruence). lia. }
  apply (N q); [| |apply contains_In; eapply nth_error_In; eauto].
  - specialize (Dn (S i) j q v ltac:(lia) Hq Hv). lra.
  - specialize (Dn i (S i) u q ltac:(lia) Hu Hq). lra.
Qed.

Lemma division_inside : forall a b n k, b < a -> (1 <= k < n)%nat ->
  b < a - Qnat k * ((a - b) / Qnat n) /\ a - Qnat k * ((a - b) / Qnat n) < a.
Proof.
  intros a b n k AB K. set (h := (a - b) / Qnat n).
  assert (N : 0 < Qnat n) by (apply Qnat_pos; lia).
  assert (H : h * Qnat n == a - b) by (unfold h; field; lra).
  assert (HP : 0 < h) by (unfold h; apply Qlt_shift_div_l; lra).
  pose proof (Qnat_pos k ltac:(lia)) as KP. pose proof (Qnat_lt k n ltac:(lia)) as KN. clearbody h. split; nra.
Qed.

Lemma refine_between : forall z c m a b, 0 < c -> desc z -> refine z c = Some m -> neighbours (contains z) a b ->
  exists n, parts c (a - b) n /\ forall y, b < y -> y < a ->
    (contains m y <-> exists k, (1 <= k < n)%nat /\ y == a - Qnat k * ((a - b) / Qnat n)).
Proof.
  intros z c m a b C D R N.
  destruct (neighbours_consecutive z a b D N) as (i & u & v & Hu & Hv & Eu & Ev).
  destruct N as (_ & _ & AB & N).
  destruct (divider_parts (a - b) c ltac:(lra) C) as (n & _ & P). exists n. split; auto.
  intros y L U. rewrite (refine_members z c m C D R y). split.
  - intros [H|(j & a' & b' & n' & k & Ha & Hb & P' & K & E)]; [exfalso; apply (N y); auto|].
    pose proof (consecutive_neighbours z j a' b' D Ha Hb) as (_ & _ & AB' & N').
    destruct (division_inside a' b' n' k AB' K) as (I1 & I2).
    assert (Ea : a' == a).
    { destruct (Q_dec a' a) as [[X|X]|X]; auto; exfalso.
      - apply (N a'); [lra|lra|apply contains_In; eapply nth_error_In; eauto].
      - apply (N' u); [lra|lra|apply contains_In; eapply nth_error_In; eauto]. }
    assert (Eb : b' == b).
    { destruct (Q_dec b' b) as [[X|X]|X]; auto; exfalso.
      - apply (N' v); [lra|lra|apply contains_In; eapply nth_error_In; eauto].
      - apply (N b'); [lra|lra|apply contains_In; eapply nth_error_In; eauto]. }
    assert (n' = n) as -> by (eapply parts_unique; [|eauto|eauto]; lra).
    exists k. split; auto. rewrite E, Ea, Eb. reflexivity.
  - intros (k & K & E). right. exists i, u, v, n, k. split; auto. split; auto.
    split; [eapply parts_compat; [|eauto]; lra|]. split; auto. rewrite E, Eu, Ev. reflexivity.
Qed.

Lemma neighbours_iff : forall w w' a b, (forall y, w y <-> w' y) -> neighbours w a b -> neighbours w' a b.
Proof.
  intros w w' a b E (A & B & AB & N). split; [apply E; auto|]. split; [apply E; auto|]. split; auto.
  intros y L U Y. apply (N y L U). apply E; auto.
Qed.

Lemma mesh_between : forall p b s x c m u v, 0 < c -> mesh p b s x c = Some m -> neighbours (wanted p b s x) u v ->
  exists n, parts c (u - v) n /\ forall y, v < y -> y < u ->
    (contains m y <-> exists k, (1 <= k < n)%nat /\ y == u - Qnat k * ((u - v) / Qnat n)).
Proof.
  intros p b s x c m u v C M N. destruct (mesh_is_refined _ _ _ _ _ _ C M) as (m' & R & _ & E).
  destruct (refine_between _ c m' u v C (primary_desc p b s x) R) as (n & P & H).
  { eapply neighbours_iff; [|exact N]. intros y. symmetry. apply wanted_primary. }
  exists n. split; auto. intros y L U. rewrite <- (E y). auto.
Qed.

Lemma mesh_nowhere_else : forall p b s x c m y, 0 < c -> mesh p b s x c = Some m -> contains m y ->
  wanted p b s x y \/ exists u v, neighbours (wanted p b s x) u v /\ v < y /\ y < u.
Proof.
  intros p b s x c m y C M Y. destruct (mesh_is_refined _ _ _ _ _ _ C M) as (m' & R & _ & E).
  apply E in Y. apply (refine_members _ _ _ C (primary_desc p b s x) R) in Y.
  destruct Y as [Y|(i & u & v & n & k & Hu & Hv & P & K & Ey)]; [left; apply wanted_primary; auto|].
  right. exists u, v. pose proof (consecutive_neighbours _ i u v (primary_desc p b s x) Hu Hv) as N.
  split; [eapply neighbours_iff; [|exact N]; intros q; apply wanted_primary|].
  destruct N as (_ & _ & UV & _). destruct (division_inside u v n k UV K). rewrite Ey. auto.
Qed.

(** ** Bounds *)
Lemma parts_below : forall c s n, 0 < c -> 0 < s -> parts c s n -> c * Qnat n < s + c.
Proof.
  intros c s n C Hs (P1 & P2 & P3). destruct (Qlt_le_dec (c * Qnat n) (s + c)) as [|L]; auto. exfalso.
  destruct (Nat.eq_dec n 1) as [->|N]; [assert (N1 : Qnat 1 == 1) by reflexivity; rewrite N1 in L; lra|].
  assert (E : Qnat n == Qnat (n - 1) + 1) by (rewrite <- Qnat_S; replace (S (n - 1)) with n by lia; reflexivity).
  specialize (P3 (n - 1)%nat ltac:(lia)). assert (n <= n - 1)%nat; [apply P3; rewrite E in L; lra|lia].
Qed.

Lemma Qnat_plus : forall a b, Qnat (a + b) == Qnat a + Qnat b.
Proof. intros. unfold Qnat. rewrite Nat2Z.inj_add, inject_Z_plus. reflexivity. Qed.

Lemma gaps_total : forall c z ns, 0 < c -> desc z -> Forall2 (parts c) (gaps z) ns ->
  forall a k q, nth_error z 0 = Some a -> length z = S (S k) -> nth_error z (S k) = Some q ->
  a - q <= c * Qnat (total ns) /\ c * Qnat (total ns) < (a - q) + c * Qnat (S k).
Proof.
  intros c z ns C. revert ns. induction z as [|h z IH]; intros ns D F a k q Ha L Hq; [discriminate|].
  inversion Ha; subst h. destruct z as [|b t]; [discriminate|].
  change (gaps (a :: b :: t)) with ((a - b) :: gaps (b :: t)) in F.
  inversion F as [|? n ? ns' P F']; subst. inversion D as [|? ? Dt Fz]; subst.
  assert (AB : 0 < a - b) by (inversion Fz; subst; unfold gtQ in *; lra).
  pose proof (parts_below c _ n C AB P) as PB. destruct P as (P1 & P2 & _).
  cbn [total fold_right]. fold (total ns'). pose proof (Qnat_plus n (total ns')) as EQ.
  pose proof (Qnat_S k) as ES. cbn [nth_error] in Hq.
  destruct k as [|k].
  - destruct t; [|discriminate]. cbn in F'. inversion F'; subst. cbn in Hq. inversion Hq; subst q.
    assert (Z0 : Qnat 0 == 0) by reflexivity. cbn [total fold_right] in *. rewrite EQ, ES, Z0. split; lra.
  - assert (L' : length (b :: t) = S (S k)) by (cbn [length] in *; lia).
    destruct (IH ns' Dt F' b k q eq_refl L' Hq) as (A & B). rewrite EQ, ES. split; lra.
Qed.

Lemma mesh_bounds : forall p b s x c m l a k q, 0 < c -> mesh p b s x c = Some m -> lists (wanted p b s x) l ->
  nth_error l 0 = Some a -> length l = S (S k) -> nth_error l (S k) = Some q ->
  a - q <= c * Qnat (length m - 1) /\ c * Qnat (length m - 1) < (a - q) + c * Qnat (S k).
Proof.
  intros p b s x c m l a k q C M Ls Ha Lk Hq.
  destruct (mesh_count p b s x c m l C M Ls) as (ns & F & N).
  assert (length m - 1 = total ns)%nat as -> by (rewrite N, Lk; cbn [Nat.min]; lia).
  apply (gaps_total c l ns C) with (k := k); auto. apply desc_nth. apply Ls.
Qed.

(** ** An accepted model *)
Lemma mesh_five : forall p t b s x c m sb, pile_top p = Ok t -> pile_bottom p = Ok b ->
  accept_model (t - b) c b sb = Ok tt -> mesh p b s x c = Some m -> (5 <= length (elements_of m))%nat.
Proof.
  intros p t b s x c m sb T B A M. unfold accept_model in A.
  destruct (Qltb c (1#100)) eqn:E1; [discriminate|].
  destruct (Qle_bool (5 * c) (t - b)) eqn:E2; [|discriminate]. cbn [negb] in A.
  apply Qltb_false in E1. apply Qle_bool_iff in E2. assert (C : 0 < c) by lra.
  assert (WT : wanted p b s x t).
  { left. left. unfold pile_top in T. destruct p as [|h r]; [discriminate|]. inversion T; subst.
    exists h. split; [left; reflexivity|left; reflexivity]. }
  assert (WB : wanted p b s x b).
  { left. left. unfold pile_bottom in B. unfold last_section in B.
    destruct (rev p) as [|h r] eqn:R; [discriminate|]. cbn in B. inversion B; subst.
    exists h. split; [apply in_rev; rewrite R; left; reflexivity|right; reflexivity]. }
  pose proof (mesh_wanted _ _ _ _ _ _ _ C M WT) as CT. pose proof (mesh_wanted _ _ _ _ _ _ _ C M WB) as CB.
  apply contains_nth in CT, CB. destruct CT as (i & u & Hu & Eu), CB as (j & v & Hv & Ev).
  rewrite elements_length.
  destruct (divider_parts (t - b) c ltac:(lra) C) as (n & _ & P).
  pose proof (positions c m t b i u j v n (mesh_within _ _ _ _ _ _ C M) (mesh_descending _ _ _ _ _ _ M)
                Hu Eu Hv Ev ltac:(lra) P) as L.
  assert (j < length m)%nat by (apply nth_error_Some; congruence).
  assert (5 <= n)%nat.
  { destruct P as (P1 & P2 & _). destruct (Nat.le_gt_cases 5 n) as [|G]; auto. exfalso.
    pose proof (Qnat_lt n 5 G) as X. assert (Qnat 5 == 5) by reflexivity. nra. }
  lia.
Qed.

(** ** Nested meshes *)
Lemma Qnat_mult : forall a b, Qnat (a * b) == Qnat a * Qnat b.
Proof. intros. unfold Qnat. rewrite Nat2Z.inj_mul, inject_Z_mult. reflexivity. Qed.

Lemma Qnat_le_inv : forall a b, Qnat a <= Qnat b -> (a <= b)%nat.
Proof. intros a b H. unfold Qnat in H. rewrite <- Zle_Qle in H. lia. Qed.

Lemma parts_multiple : forall c s n N, 0 < c -> 0 < s -> s == c * Qnat N -> parts c s n -> n = N.
Proof.
  intros c s n N C Hs E (P1 & P2 & P3).
  assert (N1 : (1 <= N)%nat).
  { destruct N; [|lia]. assert (Z0 : Qnat 0 == 0) by reflexivity. rewrite Z0 in E. lra. }
  apply Nat.le_antisymm; [apply P3; auto; lra|]. apply Qnat_le_inv.
  rewrite E in P2. apply (Qmult_le_l _ _ c C). auto.
Qed.

Lemma mesh_nested : forall p b s x c m k m' y, 0 < c -> (1 <= k)%nat ->
  (forall u v, neighbours (wanted p b s x) u v -> exists N, u - v == c * Qnat N) ->
  mesh p b s x c = Some m -> mesh p b s x (c / Qnat k) = Some m' -> contains m y -> contains m' y.
Proof.
  intros p b s x c m k m' y C K Mult M M' Y.
  pose proof (Qnat_pos k K) as KP.
  assert (C' : 0 < c / Qnat k) by (apply Qlt_shift_div_l; lra).
  destruct (mesh_nowhere_else p b s x c m y C M Y) as [W|(u & v & N & L & U)];
    [apply (mesh_wanted _ _ _ _ _ _ _ C' M' W)|].
  destruct (mesh_between p b s x c m u v C M N) as (n & P & H).
  destruct (mesh_between p b s x _ m' u v C' M' N) as (n' & P' & H').
  destruct (Mult u v N) as (Nn & EN). assert (UV : 0 < u - v) by lra.
  pose proof (parts_multiple c _ n Nn C UV EN P) as ->.
  assert (n' = Nn * k)%nat as ->.
  { apply (parts_multiple (c / Qnat k) (u - v)); auto. rewrite EN, Qnat_mult. field. lra. }
  apply H in Y; auto. destruct Y as (i & Hi & Ey).
  apply H'; auto. exists (i * k)%nat. split; [nia|].
  rewrite Ey, !Qnat_mult. assert (0 < Qnat Nn) by (apply Qnat_pos; lia). field. lra.
Qed.

(** ** The mesh depends on the set of elevations only *)
Lemma mesh_set_incl : forall p b s x c m p' b' s' x' m', 0 < c -> (forall y, wanted p b s x y <-> wanted p' b' s' x' y) ->
  mesh p b s x c = Some m -> mesh p' b' s' x' c = Some m' -> forall y, contains m y -> contains m' y.
Proof.
  intros p b s x c m p' b' s' x' m' C E M M' y Y.
  destruct (mesh_nowhere_else p b s x c m y C M Y) as [W|(u & v & N & L & U)].
  - apply (mesh_wanted p' b' s' x' c m' y C M'). apply E. auto.
  - destruct (mesh_between p b s x c m u v C M N) as (n & P & H).
    destruct (mesh_between p' b' s' x' c m' u v C M') as (n' & P' & H'); [eapply neighbours_iff; [exact E|exact N]|].
    assert (n' = n) as -> by (eapply parts_unique; [reflexivity|exact P'|exact P]).
    apply H'; auto. apply H; auto.
Qed.

Lemma mesh_set : forall p b s x c m p' b' s' x' m', 0 < c -> (forall y, wanted p b s x y <-> wanted p' b' s' x' y) ->
  mesh p b s x c = Some m -> mesh p' b' s' x' c = Some m' ->
  Forall2 Qeq m m' /\ nodes_of m = nodes_of m' /\ elements_of m = elements_of m'.
Proof.
  intros p b s x c m p' b' s' x' m' C E M M'.
  assert (F : Forall2 Qeq m m').
  { apply desc_unique; [apply desc_nth; apply (mesh_descending _ _ _ _ _ _ M)|apply desc_nth; apply (mesh_descending _ _ _ _ _ _ M')|].
    intros y. split; [apply (mesh_set_incl p b s x c m p' b' s' x' m'); auto|].
    apply (mesh_set_incl p' b' s' x' c m' p b s x m); auto. intros q. symmetry. apply E. }
  assert (N : nodes_of m = nodes_of m').
  { clear -F. unfold nodes_of. induction F as [|a a' t t' H F IH]; [reflexivity|]. cbn [map]. rewrite IH, (round4_comp _ _ H). reflexivity. }
  split; auto. split; auto.
  assert (L : forall l, elements_of l = combine (removelast (nodes_of l)) (tl (nodes_of l))).
  { intros l. unfold elements_of, nodes_of. induction l as [|a [|q t] IH]; [reflexivity|reflexivity|].
    cbn [removelast tl combine map] in *. f_equal. exact IH. }
  rewrite !L, N. reflexivity.
Qed.
