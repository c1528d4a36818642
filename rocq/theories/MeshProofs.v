From Coq Require Import List Bool Arith ZArith QArith Qabs Qround Lia Lqa Sorted Permutation.
From Verif Require Import Base BCModel BCSpec PileModel PileSpec PileProofs MeshModel MeshSpec.
Import ListNotations.
Local Open Scope Q_scope.

Definition gtQ (a b : Q) : Prop := b < a.
Notation desc := (StronglySorted gtQ).

Lemma contains_cons : forall h t x, contains (h :: t) x <-> h == x \/ contains t x.
Proof.
  intros. unfold contains. split.
  - intros (y & [<-|H] & E); eauto.
  - intros [E|(y & H & E)]; [exists h|exists y]; simpl; auto.
Qed.

Lemma contains_nil : forall x, ~ contains [] x.
Proof. intros x (y & [] & _). Qed.

Lemma contains_app : forall l1 l2 x, contains (l1 ++ l2) x <-> contains l1 x \/ contains l2 x.
Proof.
  intros. unfold contains. split.
  - intros (y & H & E). apply in_app_or in H. destruct H; eauto.
  - intros [(y & H & E)|(y & H & E)]; exists y; split; auto; apply in_or_app; auto.
Qed.

Lemma contains_eq : forall l x y, x == y -> contains l x -> contains l y.
Proof. intros l x y E (z & H & Ez). exists z. split; auto. rewrite Ez; auto. Qed.

Lemma contains_In : forall l x, In x l -> contains l x.
Proof. intros. exists x; split; auto. reflexivity. Qed.

Lemma uinsert_contains : forall x l y, contains (uinsert x l) y <-> x == y \/ contains l y.
Proof.
  intros x l y; induction l as [|h t IH]; simpl.
  - rewrite contains_cons. tauto.
  - destruct (Qeq_bool x h) eqn:E.
    + apply Qeqb_true in E. rewrite contains_cons. split; auto.
      intros [H|H]; auto. left. rewrite <- E; auto.
    + destruct (Qltb h x) eqn:L.
      * rewrite !contains_cons. tauto.
      * rewrite !contains_cons, IH. tauto.
Qed.

Lemma uinsert_desc : forall x l, desc l -> desc (uinsert x l).
Proof.
  intros x l S. induction S as [|h t S IH F]; simpl; [repeat constructor|].
  destruct (Qeq_bool x h) eqn:E; [constructor; auto|].
  destruct (Qltb h x) eqn:L.
  - apply Qltb_true in L. constructor; [constructor; auto|]. constructor; auto.
    rewrite Forall_forall in *. intros y Hy. specialize (F y Hy). unfold gtQ in *. lra.
  - apply Qltb_false in L. apply Qeqb_false in E.
    constructor; auto. apply Forall_forall. intros y Hy.
    apply contains_In in Hy. apply uinsert_contains in Hy. destruct Hy as [Hy|(z & Hz & Ez)].
    + unfold gtQ. rewrite <- Hy. destruct (Qlt_le_dec x h); auto. exfalso. apply E. lra.
    + rewrite Forall_forall in F. specialize (F z Hz). unfold gtQ in *. rewrite <- Ez; auto.
Qed.

Lemma unique_desc_contains : forall l x, contains (unique_desc l) x <-> contains l x.
Proof.
  induction l as [|h t IH]; intros x; simpl; [tauto|].
  rewrite uinsert_contains, contains_cons, IH. tauto.
Qed.

Lemma unique_desc_desc : forall l, desc (unique_desc l).
Proof. induction l; simpl; [constructor|apply uinsert_desc; auto]. Qed.

(** A strictly descending list is determined by its members. *)
Lemma desc_unique : forall l l', desc l -> desc l' -> (forall x, contains l x <-> contains l' x) ->
  Forall2 Qeq l l'.
Proof.
  induction l as [|h t IH]; intros l' S S' H.
  - destruct l' as [|h' t']; auto. exfalso.
    apply (contains_nil h'). apply H. apply contains_In; left; auto.
  - destruct l' as [|h' t'].
    { exfalso. apply (contains_nil h). apply H. apply contains_In; left; auto. }
    inversion S as [|? ? St Ft]; subst. inversion S' as [|? ? St' Ft']; subst.
    rewrite Forall_forall in Ft, Ft'.
    assert (E : h == h').
    { assert (A : contains (h' :: t') h) by (apply H; apply contains_In; left; auto).
      assert (B : contains (h :: t) h') by (apply H; apply contains_In; left; auto).
      apply contains_cons in A. apply contains_cons in B.
      destruct A as [A|(y & Hy & Ey)]; [symmetry; auto|].
      destruct B as [B|(z & Hz & Ez)]; auto.
      specialize (Ft' y Hy). specialize (Ft z Hz). unfold gtQ in *. lra. }
    constructor; auto. apply IH; auto.
    intros x. specialize (H x). rewrite !contains_cons in H. split; intros C.
    + assert (A : h' == x \/ contains t' x) by (apply H; auto). destruct A as [A|]; auto.
      exfalso. destruct C as (y & Hy & Ey). specialize (Ft y Hy). unfold gtQ in Ft. lra.
    + assert (A : h == x \/ contains t x) by (apply H; auto). destruct A as [A|]; auto.
      exfalso. destruct C as (y & Hy & Ey). specialize (Ft' y Hy). unfold gtQ in Ft'. lra.
Qed.

(** ** The divider *)

Lemma Qnat_pos : forall n, (1 <= n)%nat -> 0 < Qnat n.
Proof. intros n H. unfold Qnat. change 0 with (inject_Z 0). rewrite <- Zlt_Qlt. lia. Qed.

Lemma Qnat_ge1 : forall n, (1 <= n)%nat -> 1 <= Qnat n.
Proof. intros n H. unfold Qnat. change 1 with (inject_Z 1). rewrite <- Zle_Qle. lia. Qed.

Lemma Qnat_S : forall n, Qnat (S n) == Qnat n + 1.
Proof. intros. unfold Qnat. rewrite Nat2Z.inj_succ, <- Z.add_1_r, inject_Z_plus. reflexivity. Qed.

Lemma Qnat_le : forall a b, (a <= b)%nat -> Qnat a <= Qnat b.
Proof. intros. unfold Qnat. rewrite <- Zle_Qle. lia. Qed.

Lemma Qnat_lt : forall a b, (a < b)%nat -> Qnat a < Qnat b.
Proof. intros. unfold Qnat. rewrite <- Zlt_Qlt. lia. Qed.

Lemma Qdiv_le_iff : forall a n c, 0 < n -> (a / n <= c <-> a <= c * n).
Proof.
  intros a n c N. split; intros H.
  - assert (E : a == (a / n) * n) by (field; lra). rewrite E. apply Qmult_le_compat_r; lra.
  - apply Qle_shift_div_r; auto.
Qed.

Lemma divider_loop_spec : forall fuel s c k d, divider_loop fuel s c k = Some d ->
  (k <= d)%nat /\ s / Qnat d <= c /\ forall j, (k <= j < d)%nat -> c < s / Qnat j.
Proof.
  induction fuel as [|f IH]; intros s c k d H; simpl in H; [discriminate|].
  destruct (Qle_bool (s / Qnat k) c) eqn:E.
  - inversion H; subst. apply Qleb_true in E. repeat split; auto. intros; lia.
  - apply Qleb_false in E. apply IH in H. destruct H as (A & B & C).
    repeat split; auto; [lia|]. intros j J. destruct (Nat.eq_dec j k) as [->|N]; auto.
    apply C. lia.
Qed.

Lemma divider_loop_total : forall fuel s c k j, (k <= j < k + fuel)%nat -> s / Qnat j <= c ->
  exists d, divider_loop fuel s c k = Some d.
Proof.
  induction fuel as [|f IH]; intros s c k j J H; [lia|]. simpl.
  destruct (Qle_bool (s / Qnat k) c) eqn:E; [eauto|].
  apply (IH s c (S k) j); auto. destruct (Nat.eq_dec j k) as [->|N]; [|lia].
  apply Qleb_false in E. lra.
Qed.

Lemma divider_spec : forall s c, 0 < s -> 0 < c ->
  exists d, divider s c = Some d /\ (1 <= d)%nat /\ s / Qnat d <= c /\
    forall j, (1 <= j < d)%nat -> c < s / Qnat j.
Proof.
  intros s c Hs Hc. unfold divider.
  set (n := Z.to_nat (Qceiling (s / c))).
  assert (SC : 0 < s / c) by (apply Qlt_shift_div_l; lra).
  assert (N1 : (1 <= n)%nat).
  { unfold n. assert (0 < Qceiling (s / c))%Z; [|lia].
    rewrite Zlt_Qlt. pose proof (Qle_ceiling (s / c)). change (inject_Z 0) with 0. lra. }
  assert (B : s / Qnat n <= c).
  { apply Qdiv_le_iff; [apply Qnat_pos; auto|].
    assert (E : s == c * (s / c)) by (field; lra). rewrite E at 1.
    unfold Qnat, n. rewrite Z2Nat.id by (unfold n in N1; lia).
    pose proof (Qle_ceiling (s / c)). nra. }
  destruct (divider_loop_total (S n) s c 1 n ltac:(lia) B) as [d D].
  exists d. split; auto. apply divider_loop_spec in D. tauto.
Qed.

Lemma subdivide_nth : forall z s d k, (1 <= k < d)%nat ->
  nth_error (subdivide z s d) (k - 1) = Some (z - Qnat k * (s / Qnat d)).
Proof.
  intros z s d k K. unfold subdivide. rewrite nth_error_map.
  rewrite (nth_error_nth' _ 0%nat) by (rewrite seq_length; lia).
  rewrite seq_nth by lia. simpl. repeat f_equal. lia.
Qed.

(** ** The ordered refinement *)

Fixpoint refine (z : list Q) (c : Q) : option (list Q) :=
  match z with
  | [] => Some []
  | a :: t =>
      match t with
      | [] => Some [a]
      | b :: _ =>
          match divider (a - b) c, refine t c with
          | Some d, Some r => Some ((a :: subdivide a (a - b) d) ++ r)
          | _, _ => None
          end
      end
  end.

Lemma refine_cons2 : forall a b t c, refine (a :: b :: t) c =
  match divider (a - b) c, refine (b :: t) c with
  | Some d, Some r => Some ((a :: subdivide a (a - b) d) ++ r)
  | _, _ => None
  end.
Proof. reflexivity. Qed.

Lemma secondary_cons2 : forall a b t c, secondary (a :: b :: t) c =
  match divider (a - b) c, secondary (b :: t) c with
  | Some d, Some r => Some (subdivide a (a - b) d ++ r)
  | _, _ => None
  end.
Proof. reflexivity. Qed.

(** the points a, a - h, ..., a - (d-1) h *)
Lemma sub_list : forall a s d, (1 <= d)%nat ->
  map (fun k => a - Qnat k * (s / Qnat d)) (seq 0 d) =
  (a - Qnat 0 * (s / Qnat d)) :: subdivide a s d.
Proof.
  intros a s d D. destruct d; [lia|]. unfold subdivide. simpl seq at 1. cbn [map].
  replace (S d - 1)%nat with d by lia. reflexivity.
Qed.

Definition steps (c g : Q) (l : list Q) : Prop :=
  forall i a b, nth_error l i = Some a -> nth_error l (S i) = Some b -> g < a - b /\ a - b <= c.

Lemma steps_cons : forall c g a b t, steps c g (a :: b :: t) <-> (g < a - b /\ a - b <= c) /\ steps c g (b :: t).
Proof.
  intros. split.
  - intros H. split; [apply (H O a b); reflexivity|]. intros i x y Hx Hy. apply (H (S i) x y Hx Hy).
  - intros [A B] [|i] x y Hx Hy; simpl in *.
    + inversion Hx; inversion Hy; subst; auto.
    + apply (B i x y Hx Hy).
Qed.

Lemma steps_desc : forall c g l, 0 <= g -> steps c g l -> desc l.
Proof.
  intros c g l G. induction l as [|a t IH]; intros H; [constructor|].
  assert (Ht : steps c g t) by (intros i x y Hx Hy; apply (H (S i) x y Hx Hy)).
  specialize (IH Ht). constructor; auto.
  destruct t as [|b t]; auto. apply steps_cons in H. destruct H as [[A _] _].
  inversion IH as [|? ? S F]; subst. constructor; [unfold gtQ; lra|].
  rewrite Forall_forall in *. intros x Hx. specialize (F x Hx). unfold gtQ in *. lra.
Qed.

(** prepend an arithmetic run a - i h for i in [j, d) to a list starting at a - d h *)
Lemma run_steps : forall c g h a r b n j, b == a - Qnat (j + n) * h -> g < h -> h <= c ->
  steps c g (b :: r) -> steps c g (map (fun k => a - Qnat k * h) (seq j n) ++ b :: r).
Proof.
  intros c g h a r b n. induction n as [|n IH]; intros j B G C SS.
  - simpl. exact SS.
  - simpl seq. cbn [map app].
    specialize (IH (S j)). replace (S j + n)%nat with (j + S n)%nat in IH by lia.
    specialize (IH B G C SS).
    destruct n as [|n].
    + simpl in *. apply steps_cons. split; auto.
      rewrite B. replace (j + 1)%nat with (S j) by lia. rewrite Qnat_S. split; lra.
    + cbn [seq map app] in *. apply steps_cons. split; auto.
      rewrite Qnat_S. split; lra.
Qed.

Lemma steps_ext : forall c g a a' t, a == a' -> steps c g (a :: t) -> steps c g (a' :: t).
Proof.
  intros c g a a' t E H [|i] x y Hx Hy.
  - simpl in Hx. inversion Hx; subst. specialize (H O a y eq_refl Hy). lra.
  - apply (H (S i) x y Hx Hy).
Qed.

Lemma refine_steps : forall z c g, 0 < c -> 0 <= g -> g < c / 2 ->
  (forall i a b, nth_error z i = Some a -> nth_error z (S i) = Some b -> g < a - b) ->
  exists m, refine z c = Some m /\ steps c g m /\
    (forall a t, z = a :: t -> exists m', m = a :: m').
Proof.
  intros z c g C G G2. unfold Qdiv in G2. change (/2) with (1#2) in G2.
  induction z as [|a t IH]; intros H.
  - exists []. split; auto. split; [intros [|i]; discriminate|]. intros; discriminate.
  - destruct t as [|b t].
    + exists [a]. split; auto. split; [intros [|[|i]]; discriminate|].
      intros x y E; inversion E; subst; eauto.
    + destruct IH as (m & R & S & Hd).
      { intros i x y Hx Hy. apply (H (Datatypes.S i) x y Hx Hy). }
      destruct (Hd b t eq_refl) as [m' ->].
      assert (AB : g < a - b) by (apply (H O a b); reflexivity).
      destruct (divider_spec (a - b) c ltac:(lra) C) as (d & D & D1 & DC & DM).
      rewrite refine_cons2, D, R.
      eexists. split; [reflexivity|]. split.
      2:{ intros x y E. inversion E; subst. simpl. eauto. }
      set (h := (a - b) / Qnat d) in *.
      assert (DP : 0 < Qnat d) by (apply Qnat_pos; auto).
      assert (HD : h * Qnat d == a - b) by (unfold h; field; lra).
      assert (GH : g < h).
      { destruct (Nat.eq_dec d 1) as [->|N].
        - assert (h == a - b) by (rewrite <- HD; unfold Qnat; simpl; ring). lra.
        - specialize (DM (d - 1)%nat ltac:(lia)).
          assert (P1 : 1 <= Qnat (d - 1)) by (apply Qnat_ge1; lia).
          assert (E1 : Qnat d == Qnat (d - 1) + 1) by (rewrite <- Qnat_S; replace (Datatypes.S (d-1)) with d by lia; reflexivity).
          assert (X : c * Qnat (d - 1) < a - b).
          { assert (E2 : (a - b) == ((a - b) / Qnat (d - 1)) * Qnat (d - 1)) by (field; lra).
            rewrite E2. apply Qmult_lt_compat_r; lra. }
          (* h d > c (d-1) >= c d / 2 *)
          assert (Y : c * (1#2) * Qnat d <= c * Qnat (d - 1)) by nra.
          assert (Z : c * (1#2) * Qnat d < h * Qnat d) by lra.
          assert (c * (1#2) < h) by (apply (Qmult_lt_r _ _ (Qnat d)); auto). lra. }
      pose proof (run_steps c g h a m' b d 0) as RS.
      pose proof (sub_list a (a - b) d D1) as SL. fold h in SL. rewrite SL in RS.
      eapply steps_ext; [|apply RS; auto].
      * unfold Qnat; simpl; ring.
      * simpl. rewrite Qmult_comm, HD. ring.
Qed.

(** membership *)
Lemma refine_secondary : forall z c m, refine z c = Some m ->
  exists r, secondary z c = Some r /\ forall x, contains m x <-> contains (z ++ r) x.
Proof.
  induction z as [|a t IH]; intros c m H.
  - simpl in H. inversion H; subst. exists []. split; auto. simpl. tauto.
  - destruct t as [|b t].
    + simpl in H. inversion H; subst. exists []. split; auto. simpl. tauto.
    + rewrite refine_cons2 in H. destruct (divider (a - b) c) as [d|] eqn:D; [|discriminate].
      destruct (refine (b :: t) c) as [r'|] eqn:R; [|discriminate].
      inversion H; subst m. destruct (IH c r' R) as (r & S & M).
      exists (subdivide a (a - b) d ++ r). split.
      * rewrite secondary_cons2, D, S. reflexivity.
      * intros x. specialize (M x). cbn [app] in *. rewrite ?contains_app, ?contains_cons, ?contains_app, ?contains_cons, ?contains_app in *. tauto.
Qed.

Lemma primary_desc : forall p b s x, desc (primary p b s x).
Proof. intros. apply unique_desc_desc. Qed.

Lemma desc_nth : forall l, desc l <-> strictly_descending l.
Proof.
  intros l. split.
  - intros S. induction S as [|h t S IH F]; intros i j a b L Hi Hj; [destruct i; discriminate|].
    destruct j; [lia|]. destruct i; simpl in *.
    + inversion Hi; subst. apply nth_error_In in Hj. rewrite Forall_forall in F. apply F; auto.
    + apply (IH i j); auto; lia.
  - induction l as [|h t IH]; intros H; constructor.
    + apply IH. intros i j a b L Hi Hj. apply (H (S i) (S j) a b); auto; lia.
    + apply Forall_forall. intros x Hx. apply In_nth_error in Hx. destruct Hx as [j Hj].
      apply (H O (S j) h x); auto; lia.
Qed.

Lemma mesh_refine : forall p b s x c g, 0 < c -> 0 <= g -> g < c / 2 ->
  (forall i u v, nth_error (primary p b s x) i = Some u -> nth_error (primary p b s x) (S i) = Some v -> g < u - v) ->
  exists m m', mesh p b s x c = Some m /\ Forall2 Qeq m m' /\ steps c g m' /\
    (forall y, contains m' y <-> contains m y) /\
    (forall y, contains (primary p b s x) y -> contains m y) /\
    (forall a t, primary p b s x = a :: t -> exists m'', m' = a :: m'').
Proof.
  intros p b s x c g C G G2 H.
  destruct (refine_steps (primary p b s x) c g C G G2 H) as (m' & R & S & Hd).
  destruct (refine_secondary _ _ _ R) as (r & S2 & M).
  unfold mesh. rewrite S2. eexists; exists m'. split; [reflexivity|].
  assert (CE : forall y, contains m' y <-> contains (unique_desc (primary p b s x ++ r)) y).
  { intros y. rewrite unique_desc_contains. apply M. }
  split; [|split; [exact S|split; [exact CE|split; auto]]].
  - apply desc_unique.
    + apply unique_desc_desc.
    + eapply steps_desc; eauto.
    + intros y. rewrite CE. tauto.
  - intros y Hy. rewrite unique_desc_contains, contains_app. auto.
Qed.

Lemma desc_steps0 : forall l, desc l -> forall i u v, nth_error l i = Some u -> nth_error l (S i) = Some v -> 0 < u - v.
Proof.
  intros l D i u v Hu Hv. apply desc_nth in D. specialize (D i (S i) u v ltac:(lia) Hu Hv). lra.
Qed.

Lemma Forall2_nth : forall A B (R : A -> B -> Prop) l l' i a, Forall2 R l l' -> nth_error l i = Some a ->
  exists b, nth_error l' i = Some b /\ R a b.
Proof.
  intros A B R l l' i a F. revert i. induction F; intros [|i] H1; simpl in *; try discriminate.
  - inversion H1; subst; eauto.
  - eauto.
Qed.

Lemma half_pos : forall c, 0 < c -> 0 < c / 2.
Proof. intros. unfold Qdiv. change (/2) with (1#2). lra. Qed.

(** ** Main mesh lemmas *)

Lemma mesh_exists : forall p b s x c, 0 < c -> exists m, mesh p b s x c = Some m.
Proof.
  intros p b s x c C.
  destruct (mesh_refine p b s x c 0 C (Qle_refl 0) (half_pos c C)
             (desc_steps0 _ (primary_desc p b s x))) as (m & m' & M & _). eauto.
Qed.

Lemma mesh_descending : forall p b s x c m, mesh p b s x c = Some m -> strictly_descending m.
Proof.
  intros p b s x c m H. unfold mesh in H. destruct (secondary _ c); [|discriminate].
  inversion H; subst. apply desc_nth, unique_desc_desc.
Qed.

Lemma primary_contains : forall p b s x y,
  contains (primary p b s x) y <->
  contains (pile_elevations p) y \/
  contains (match s with Some ls => soil_elevations b ls | None => [] end) y \/ contains x y.
Proof. intros. unfold primary. rewrite unique_desc_contains, !contains_app. tauto. Qed.

Lemma pile_elevations_contains : forall p y,
  contains (pile_elevations p) y <-> exists s, In s p /\ (y == s_top s \/ y == s_bottom s).
Proof.
  intros p y. unfold contains, pile_elevations. split.
  - intros (z & H & E). apply in_flat_map in H. destruct H as (s & Hs & Hz). exists s. split; auto.
    simpl in Hz. destruct Hz as [<-|[<-|[]]]; [left|right]; symmetry; auto.
  - intros (s & Hs & [E|E]); [exists (s_top s)|exists (s_bottom s)]; (split; [|symmetry; auto]);
      apply in_flat_map; exists s; simpl; auto.
Qed.

Lemma soil_elevations_contains : forall b ls y,
  contains (soil_elevations b ls) y <->
  (exists l, In l ls /\ (y == l_top l \/ y == l_bottom l) /\ b <= y) \/
  (y == b /\ exists l, In l ls /\ (l_top l < b \/ l_bottom l < b)).
Proof.
  intros b ls y. unfold soil_elevations. set (e := map l_top ls ++ map l_bottom ls).
  assert (M : forall v, In v e <-> exists l, In l ls /\ (v = l_top l \/ v = l_bottom l)).
  { intros v. unfold e. rewrite in_app_iff, !in_map_iff. split.
    - intros [(l & E & H)|(l & E & H)]; exists l; auto.
    - intros (l & H & [E|E]); [left|right]; exists l; auto. }
  destruct (existsb (fun x => Qltb x b) e) eqn:X.
  - apply existsb_exists in X. destruct X as (w & Hw & L). apply Qltb_true in L. split.
    + intros (v & Hv & E). apply filter_In in Hv. destruct Hv as [Hv B]. apply Qleb_true in B.
      destruct Hv as [<-|Hv].
      * right. split; [symmetry; auto|]. apply M in Hw. destruct Hw as (l & Hl & [->| ->]); exists l; auto.
      * left. apply M in Hv. destruct Hv as (l & Hl & Hv). exists l. split; auto. split; [|lra].
        destruct Hv as [->| ->]; [left|right]; symmetry; auto.
    + intros [(l & Hl & V & B)|(E & _)].
      * destruct V as [V|V].
        -- exists (l_top l). split; [|symmetry; auto]. apply filter_In. split; [right; apply M; eauto|].
           apply Qleb_true. lra.
        -- exists (l_bottom l). split; [|symmetry; auto]. apply filter_In. split; [right; apply M; eauto|].
           apply Qleb_true. lra.
      * exists b. split; [|symmetry; auto]. apply filter_In. split; [left; auto|].
        apply Qleb_true. lra.
  - assert (NB : forall v, In v e -> b <= v).
    { intros v Hv. destruct (Qlt_le_dec v b) as [L|]; auto. exfalso.
      assert (existsb (fun x => Qltb x b) e = true); [|congruence].
      apply existsb_exists. exists v. split; auto. apply Qltb_true; auto. }
    split.
    + intros (v & Hv & E). left. specialize (NB v Hv) as B. apply M in Hv. destruct Hv as (l & Hl & Hv).
      exists l. split; auto. split; [|lra]. destruct Hv as [->| ->]; [left|right]; symmetry; auto.
    + intros [(l & Hl & V & B)|(E & l & Hl & [L|L])].
      * destruct V as [V|V]; [exists (l_top l)|exists (l_bottom l)]; (split; [apply M; eauto|symmetry; auto]).
      * specialize (NB (l_top l)). exfalso. assert (b <= l_top l) by (apply NB, M; eauto). lra.
      * specialize (NB (l_bottom l)). exfalso. assert (b <= l_bottom l) by (apply NB, M; eauto). lra.
Qed.

Lemma requested_primary : forall p b s x y, requested p b s x y -> contains (primary p b s x) y.
Proof.
  intros p b s x y [H|[(ls & l & -> & Hl & V & B)|H]]; apply primary_contains.
  - left. apply pile_elevations_contains; auto.
  - right; left. apply soil_elevations_contains. left. eauto.
  - auto.
Qed.

Lemma mesh_contains_requested : forall p b s x c m y, 0 < c -> mesh p b s x c = Some m ->
  requested p b s x y -> contains m y.
Proof.
  intros p b s x c m y C M R.
  destruct (mesh_refine p b s x c 0 C (Qle_refl 0) (half_pos c C)
             (desc_steps0 _ (primary_desc p b s x))) as (m1 & m' & M1 & _ & _ & _ & P & _).
  rewrite M in M1. inversion M1; subst. apply P, requested_primary; auto.
Qed.

Lemma mesh_spacing : forall p b s x c m i u v, 0 < c -> mesh p b s x c = Some m ->
  nth_error m i = Some u -> nth_error m (S i) = Some v -> 0 < u - v /\ u - v <= c.
Proof.
  intros p b s x c m i u v C M Hu Hv.
  destruct (mesh_refine p b s x c 0 C (Qle_refl 0) (half_pos c C)
             (desc_steps0 _ (primary_desc p b s x))) as (m1 & m' & M1 & F & S & _ & _ & _).
  rewrite M in M1. inversion M1; subst.
  destruct (Forall2_nth _ _ _ _ _ _ _ F Hu) as (u' & Hu' & Eu).
  destruct (Forall2_nth _ _ _ _ _ _ _ F Hv) as (v' & Hv' & Ev).
  destruct (S i u' v' Hu' Hv'). rewrite Eu, Ev. auto.
Qed.

(** larger lower bound when the requested elevations are well separated *)
Lemma mesh_spacing_low : forall p b s x c m g i u v, 0 < c -> 0 <= g -> g < c / 2 ->
  mesh p b s x c = Some m ->
  (forall y z, contains (primary p b s x) y -> contains (primary p b s x) z -> y < z -> g < z - y) ->
  nth_error m i = Some u -> nth_error m (S i) = Some v -> g < u - v /\ u - v <= c.
Proof.
  intros p b s x c m g i u v C G G2 M SEP Hu Hv.
  destruct (mesh_refine p b s x c g C G G2) as (m1 & m' & M1 & F & S & _ & _ & _).
  { intros j y z Hy Hz. apply SEP.
    - apply contains_In. eapply nth_error_In; eauto.
    - apply contains_In. eapply nth_error_In; eauto.
    - pose proof (desc_steps0 _ (primary_desc p b s x) j y z Hy Hz). lra. }
  rewrite M in M1. inversion M1; subst.
  destruct (Forall2_nth _ _ _ _ _ _ _ F Hu) as (u' & Hu' & Eu).
  destruct (Forall2_nth _ _ _ _ _ _ _ F Hv) as (v' & Hv' & Ev).
  destruct (S i u' v' Hu' Hv'). rewrite Eu, Ev. auto.
Qed.

(** ** Rounding *)

Lemma rint_bound : forall q, Qabs (inject_Z (rint q) - q) <= 1#2.
Proof.
  intros q. unfold rint. pose proof (Qfloor_le q) as L. pose proof (Qlt_floor q) as U.
  rewrite inject_Z_plus in U. change (inject_Z 1) with 1 in U.
  set (f := Qfloor q) in *.
  apply Qabs_case; intros _.
  - destruct (Qltb (q - inject_Z f) (1#2)) eqn:A; [apply Qltb_true in A; lra|]. apply Qltb_false in A.
    destruct (Qltb (1#2) (q - inject_Z f)) eqn:B.
    + rewrite inject_Z_plus. change (inject_Z 1) with 1. lra.
    + apply Qltb_false in B. destruct (Z.even f); [lra|]. rewrite inject_Z_plus. change (inject_Z 1) with 1. lra.
  - destruct (Qltb (q - inject_Z f) (1#2)) eqn:A; [apply Qltb_true in A; lra|]. apply Qltb_false in A.
    destruct (Qltb (1#2) (q - inject_Z f)) eqn:B.
    + rewrite inject_Z_plus. change (inject_Z 1) with 1. lra.
    + apply Qltb_false in B. destruct (Z.even f); [lra|]. rewrite inject_Z_plus. change (inject_Z 1) with 1. lra.
Qed.

Lemma div10000 : forall x, x / 10000 == x * (1#10000).
Proof. intros. unfold Qdiv. reflexivity. Qed.

Lemma round4_bound : forall q, Qabs (round4 q - q) <= 1#20000.
Proof.
  intros q. unfold round4. pose proof (rint_bound (q * 10000)) as H.
  rewrite div10000. apply Qabs_Qle_condition in H. apply Qabs_Qle_condition. lra.
Qed.

Lemma round4_mult : forall q, exists z, round4 q == inject_Z z / 10000.
Proof. intros. exists (rint (q * 10000)). reflexivity. Qed.

Lemma rint_comp : forall a b, a == b -> rint a = rint b.
Proof.
  intros a b E. unfold rint. rewrite (Qfloor_comp _ _ E). set (f := Qfloor b).
  assert (X : Qltb (a - inject_Z f) (1#2) = Qltb (b - inject_Z f) (1#2)).
  { destruct (Qltb (a - inject_Z f) (1#2)) eqn:P, (Qltb (b - inject_Z f) (1#2)) eqn:Q; auto;
    [apply Qltb_true in P; apply Qltb_false in Q | apply Qltb_false in P; apply Qltb_true in Q]; lra. }
  assert (Y : Qltb (1#2) (a - inject_Z f) = Qltb (1#2) (b - inject_Z f)).
  { destruct (Qltb (1#2) (a - inject_Z f)) eqn:P, (Qltb (1#2) (b - inject_Z f)) eqn:Q; auto;
    [apply Qltb_true in P; apply Qltb_false in Q | apply Qltb_false in P; apply Qltb_true in Q]; lra. }
  rewrite X, Y. reflexivity.
Qed.

Lemma round4_comp : forall a b, a == b -> round4 a = round4 b.
Proof. intros a b E. unfold round4. rewrite (rint_comp (a * 10000) (b * 10000)); [reflexivity|]. rewrite E. reflexivity. Qed.

Lemma rint_int : forall z, rint (inject_Z z) = z.
Proof.
  intros z. unfold rint. assert (Qfloor (inject_Z z) = z) as -> by apply Z.div_1_r.
  assert (X : Qltb (inject_Z z - inject_Z z) (1#2) = true) by (apply Qltb_true; lra).
  rewrite X. reflexivity.
Qed.

(** elevations given with at most four decimals are kept *)
Lemma round4_exact : forall q z, q == inject_Z z / 10000 -> round4 q == q.
Proof.
  intros q z E. unfold round4. rewrite (rint_comp (q * 10000) (inject_Z z)).
  - rewrite rint_int. symmetry; auto.
  - rewrite E. field.
Qed.

(** strict order is kept for points more than 1e-4 apart *)
Lemma round4_strict : forall a b, 1#10000 < a - b -> round4 b < round4 a.
Proof.
  intros a b H. pose proof (round4_bound a) as A. pose proof (round4_bound b) as B.
  apply Qabs_Qle_condition in A, B. lra.
Qed.

(** ** Elements *)

Lemma elements_nth : forall m i t b,
  nth_error (elements_of m) i = Some (t, b) <->
  nth_error (nodes_of m) i = Some t /\ nth_error (nodes_of m) (S i) = Some b.
Proof.
  intros m. unfold elements_of, nodes_of.
  destruct m as [|a m].
  { intros i t b. simpl. destruct i; split; [discriminate|intros [C _]; discriminate|discriminate|intros [C _]; discriminate]. }
  simpl tl. revert a. induction m as [|c m IH]; intros a i t b.
  - simpl. destruct i as [|[|i]]; split; try discriminate; intros [? ?]; discriminate.
  - change (removelast (a :: c :: m)) with (a :: removelast (c :: m)). cbn [combine map fst snd].
    destruct i as [|i].
    + cbn. split; [intros H; inversion H; auto|intros [H1 H2]; inversion H1; inversion H2; auto].
    + change (nth_error (map round4 (a :: c :: m)) (S i)) with (nth_error (map round4 (c :: m)) i).
      change (nth_error (map round4 (a :: c :: m)) (S (S i))) with (nth_error (map round4 (c :: m)) (S i)).
      apply (IH c i t b).
Qed.

Lemma elements_length : forall m, length (elements_of m) = (length m - 1)%nat.
Proof.
  intros m. unfold elements_of. rewrite map_length, combine_length.
  destruct m as [|a m]; auto. simpl tl.
  assert (length (removelast (a :: m)) = length m) as ->.
  { clear. revert a. induction m; intros; auto. change (removelast (a0 :: a :: m)) with (a0 :: removelast (a :: m)).
    cbn [length]. rewrite IHm. reflexivity. }
  rewrite Nat.min_id. simpl. lia.
Qed.

Lemma elements_total : forall m a, (exists t, m = a :: t) ->
  total_height (elements_of m) == round4 a - round4 (last m a).
Proof.
  intros m a [t ->]. revert a. induction t as [|c t IH]; intros a.
  - simpl. ring.
  - change (elements_of (a :: c :: t)) with ((round4 a, round4 c) :: elements_of (c :: t)).
    cbn [total_height fst snd]. rewrite IH.
    change (last (a :: c :: t) a) with (last (c :: t) a). rewrite (last_default _ t c a c). ring.
Qed.

Lemma elements_positive : forall p b s x c m e, 0.01 <= c -> mesh p b s x c = Some m ->
  (forall y z, contains (primary p b s x) y -> contains (primary p b s x) z -> y < z -> 1#10000 < z - y) ->
  In e (elements_of m) -> snd e < fst e /\ fst e - snd e <= c + (1#10000).
Proof.
  intros p b s x c m [t bt] C M SEP He.
  apply In_nth_error in He. destruct He as [i Hi]. apply elements_nth in Hi. destruct Hi as [H1 H2].
  unfold nodes_of in *. rewrite nth_error_map in H1, H2.
  destruct (nth_error m i) as [u|] eqn:U; [|discriminate].
  destruct (nth_error m (S i)) as [v|] eqn:V; [|discriminate].
  simpl in H1, H2. inversion H1; inversion H2; subst. simpl.
  assert (G2 : (1#10000) < c / 2) by (unfold Qdiv; change (/2) with (1#2); lra).
  assert (SP : (1#10000) < u - v /\ u - v <= c).
  { eapply mesh_spacing_low; eauto; try lra. }
  split; [apply round4_strict; lra|].
  pose proof (round4_bound u) as A. pose proof (round4_bound v) as B.
  apply Qabs_Qle_condition in A, B. lra.
Qed.

Lemma elements_not_longer : forall p b s x c m e, 0 < c -> mesh p b s x c = Some m ->
  In e (elements_of m) -> fst e - snd e <= c + (1#10000).
Proof.
  intros p b s x c m [t bt] C M He.
  apply In_nth_error in He. destruct He as [i Hi]. apply elements_nth in Hi. destruct Hi as [H1 H2].
  unfold nodes_of in *. rewrite nth_error_map in H1, H2.
  destruct (nth_error m i) as [u|] eqn:U; [|discriminate].
  destruct (nth_error m (S i)) as [v|] eqn:V; [|discriminate].
  simpl in H1, H2. inversion H1; inversion H2; subst. simpl.
  destruct (mesh_spacing p b s x c m i u v C M U V) as [_ L].
  pose proof (round4_bound u) as A. pose proof (round4_bound v) as B.
  apply Qabs_Qle_condition in A, B. lra.
Qed.

(** ** Extent of the mesh *)

Lemma desc_head_max : forall h t x, desc (h :: t) -> contains (h :: t) x -> x <= h.
Proof.
  intros h t x S H. apply contains_cons in H. destruct H as [E|(y & Hy & E)]; [lra|].
  inversion S as [|? ? _ F]; subst. rewrite Forall_forall in F. specialize (F y Hy). unfold gtQ in F. lra.
Qed.

Lemma desc_last_min : forall l d x, desc l -> contains l x -> last l d <= x.
Proof.
  induction l as [|h t IH]; intros d x S H; [destruct (contains_nil _ H)|].
  inversion S as [|? ? St F]; subst. apply contains_cons in H.
  destruct t as [|h' t].
  - simpl. destruct H as [E|H]; [lra|destruct (contains_nil _ H)].
  - change (last (h :: h' :: t) d) with (last (h' :: t) d).
    destruct H as [E|H]; auto.
    assert (L : last (h' :: t) d <= h') by (apply IH; auto; apply contains_In; left; auto).
    inversion F; subst. unfold gtQ in *. lra.
Qed.

Lemma last_In : forall A (t : list A) h d, In (last (h :: t) d) (h :: t).
Proof.
  induction t as [|a t IH]; intros h d; [left; auto|].
  change (last (h :: a :: t) d) with (last (a :: t) d). right. apply IH.
Qed.

(** every point of the mesh lies between the extreme primary points *)
Lemma refine_last : forall z c m d, refine z c = Some m -> last m d = last z d.
Proof.
  induction z as [|a t IH]; intros c m d H.
  - simpl in H. inversion H; auto.
  - destruct t as [|b t]; [simpl in H; inversion H; auto|].
    rewrite refine_cons2 in H. destruct (divider (a - b) c) as [k|]; [|discriminate].
    destruct (refine (b :: t) c) as [r|] eqn:R; [|discriminate].
    inversion H; subst m. change (last (a :: b :: t) d) with (last (b :: t) d).
    rewrite <- (IH c r d R).
    assert (N : r <> []).
    { intros ->. destruct t as [|b' t]; [discriminate|]. rewrite refine_cons2 in R.
      destruct (divider (b - b') c); [|discriminate].
      destruct (refine (b' :: t) c); discriminate. }
    destruct (exists_last N) as (r' & w & ->).
    rewrite last_last. rewrite app_comm_cons, app_assoc, last_last. reflexivity.
Qed.

Lemma mesh_ends : forall p b s x c m, 0 < c -> mesh p b s x c = Some m -> p <> [] ->
  m <> [] /\
   (forall hi d, contains (primary p b s x) hi -> (forall y, contains (primary p b s x) y -> y <= hi) ->
      hd d m == hi) /\
   (forall lo d, contains (primary p b s x) lo -> (forall y, contains (primary p b s x) y -> lo <= y) ->
      last m d == lo).
Proof.
  intros p b s x c m C M NP.
  destruct (refine_steps (primary p b s x) c 0 C (Qle_refl 0) (half_pos c C)
             (desc_steps0 _ (primary_desc p b s x))) as (m' & R & S & Hd).
  destruct (refine_secondary _ _ _ R) as (r & S2 & CM).
  unfold mesh in M. rewrite S2 in M. assert (M' : unique_desc (primary p b s x ++ r) = m) by congruence. clear M.
  assert (F : Forall2 Qeq (unique_desc (primary p b s x ++ r)) m').
  { apply desc_unique; [apply unique_desc_desc|eapply steps_desc; [apply Qle_refl|eauto]|].
    intros y. rewrite unique_desc_contains. symmetry. apply CM. }
  rewrite M' in F.
  destruct (primary p b s x) as [|a t] eqn:PR.
  { exfalso. destruct p as [|s0 p]; [congruence|].
    assert (C0 : contains (primary (s0 :: p) b s x) (s_top s0)).
    { apply primary_contains. left. apply pile_elevations_contains. exists s0. split; [left; auto|left; reflexivity]. }
    rewrite PR in C0. destruct (contains_nil _ C0). }
  destruct (Hd a t eq_refl) as [m'' ->].
  pose proof (primary_desc p b s x) as PD. rewrite PR in PD.
  pose proof (refine_last _ _ _ 0 R) as RL.
  split; [|split].
  - intros E. rewrite E in F. inversion F.
  - intros hi d Hhi Hmax. 
    inversion F as [|u v l l' E F' Eu]. simpl.
    pose proof (desc_head_max a t hi PD Hhi).
    assert (CA : contains (a :: t) a) by (apply contains_In; left; auto).
    specialize (Hmax a CA). rewrite E. lra.
  - intros lo d Hlo Hmin.
    assert (LL : forall l l' d d', Forall2 Qeq l l' -> l <> [] -> last l d == last l' d').
    { clear. intros l l' d d' F. induction F as [|u v l l' E F IH]; intros N; [congruence|].
      inversion F; subst.
      - simpl. auto.
      - change (last (u :: x :: l0) d) with (last (x :: l0) d).
        change (last (v :: y :: l'0) d') with (last (y :: l'0) d'). apply IH. discriminate. }
    rewrite (LL _ (a :: m'') d 0 F); [|intros E; rewrite E in F; inversion F].
    rewrite RL.
    pose proof (desc_last_min (a :: t) 0 lo PD Hlo).
    specialize (Hmin (last (a :: t) 0) (contains_In _ _ (last_In _ _ _ _))). lra.
Qed.

(** ** Extent in terms of the pile *)

Lemma pile_bottom_in : forall p b, pile_bottom p = Ok b -> exists s, In s p /\ s_bottom s = b.
Proof.
  intros p b H. unfold pile_bottom, last_section in H. destruct (rev p) as [|s r] eqn:E; simpl in H; [discriminate|].
  exists s. split; [|congruence]. apply in_rev. rewrite E. left; auto.
Qed.

Lemma pile_top_in : forall p t, pile_top p = Ok t -> exists s, In s p /\ s_top s = t.
Proof. intros [|s p] t H; simpl in H; [discriminate|]. exists s. split; [left; auto|congruence]. Qed.

Lemma pile_range : forall l p t b, proper l -> make_pile l = Ok p -> pile_top p = Ok t -> pile_bottom p = Ok b ->
  forall s, In s p -> b <= s_bottom s /\ s_top s <= t.
Proof.
  intros l p t b P M T B s Hs.
  destruct (pile_fills l p P M) as (PM & t' & b' & T' & B' & L & TI).
  assert (t' = t) by congruence. assert (b' = b) by congruence. subst t' b'.
  assert (Hl : In s l) by (eapply Permutation_in; [apply Permutation_sym; eauto|auto]).
  pose proof (P s Hl) as PS.
  assert (K : forall z, s_bottom s < z -> z <= s_top s -> b < z /\ z <= t).
  { intros z Z1 Z2.
    assert (D : (b < z /\ z <= t) \/ ~ (b < z /\ z <= t)).
    { destruct (Qlt_le_dec b z), (Qlt_le_dec t z); try (left; lra); right; lra. }
    destruct D as [D|D]; auto. exfalso. apply (proj2 (TI z)) in D.
    assert (1 <= occupied l z)%nat by (eapply occupied_pos; eauto; split; auto). lia. }
  split.
  - destruct (Qlt_le_dec (s_bottom s) b) as [C|]; auto. exfalso.
    destruct (Qlt_le_dec (s_top s) b) as [C2|C2].
    + destruct (K (s_top s) PS (Qle_refl _)). lra.
    + destruct (K b C C2). lra.
  - destruct (K (s_top s) PS (Qle_refl _)). auto.
Qed.

Lemma mesh_covers : forall l p t b soil x c m, proper l -> make_pile l = Ok p ->
  pile_top p = Ok t -> pile_bottom p = Ok b -> 0 < c -> mesh p b soil x c = Some m ->
  (forall ls y, soil = Some ls -> In y ls -> l_top y <= t /\ l_bottom y <= t) ->
  (forall y, In y x -> b <= y /\ y <= t) ->
  exists m', nodes_of m = m' /\ hd_error m' = Some (round4 t) /\ last m' t = round4 b.
Proof.
  intros l p t b soil x c m P M T B C MM SO X.
  assert (N : p <> []) by (intros ->; discriminate).
  destruct (mesh_ends p b soil x c m C MM N) as (NE & HI & LO).
  assert (R : forall y, contains (primary p b soil x) y -> b <= y /\ y <= t).
  { intros y Hy. apply primary_contains in Hy. destruct Hy as [Hy|[Hy|Hy]].
    - apply pile_elevations_contains in Hy. destruct Hy as (s & Hs & V).
      pose proof (pile_range l p t b P M T B s Hs).
      assert (s_bottom s < s_top s).
      { destruct (pile_fills l p P M) as (PM & _). apply P. eapply Permutation_in; [apply Permutation_sym; eauto|auto]. }
      destruct V; lra.
    - destruct soil as [ls|]; [|destruct (contains_nil _ Hy)].
      apply soil_elevations_contains in Hy. destruct Hy as [(k & Hk & V & L)|(E & _)].
      + destruct (SO ls k eq_refl Hk). destruct V; lra.
      + destruct (pile_fills l p P M) as (_ & t' & b' & T' & B' & L & _). 
        assert (t' = t) by congruence. assert (b' = b) by congruence. subst. lra.
    - destruct Hy as (z & Hz & E). destruct (X z Hz). lra. }
  destruct (pile_top_in p t T) as (st & Hst & Et). destruct (pile_bottom_in p b B) as (sb & Hsb & Eb).
  assert (HT : contains (primary p b soil x) t).
  { apply primary_contains. left. apply pile_elevations_contains. exists st. rewrite Et. split; auto. left; reflexivity. }
  assert (HB : contains (primary p b soil x) b).
  { apply primary_contains. left. apply pile_elevations_contains. exists sb. rewrite Eb. split; auto. right; reflexivity. }
  specialize (HI t 0 HT (fun y Hy => proj2 (R y Hy))).
  specialize (LO b 0 HB (fun y Hy => proj1 (R y Hy))).
  exists (nodes_of m). split; auto. destruct m as [|a m]; [congruence|]. split.
  - simpl. simpl in HI. f_equal. apply round4_comp. auto.
  - unfold nodes_of. clear - LO. revert a LO. induction m as [|h m IH]; intros a LO.
    + simpl in *. apply round4_comp; auto.
    + change (map round4 (a :: h :: m)) with (round4 a :: round4 h :: map round4 m).
      change (last (round4 a :: round4 h :: map round4 m) t) with (last (map round4 (h :: m)) t).
      apply IH. exact LO.
Qed.

(** ** A load at a requested elevation *)

Lemma isclose_spec : forall a b, isclose a b = true <-> Qabs (a - b) <= 0.001 + 0.00001 * Qabs b.
Proof. intros. unfold isclose. apply Qleb_true. Qed.

Lemma first_hit : forall nodes e, (exists z, In z nodes /\ Qabs (z - e) <= 0.001 + 0.00001 * Qabs e) ->
  exists i, maps_to nodes e i.
Proof.
  induction nodes as [|h t IH]; intros e (z & Hz & L); [destruct Hz|].
  destruct (Qlt_le_dec (0.001 + 0.00001 * Qabs e) (Qabs (h - e))) as [G|G].
  - destruct Hz as [->|Hz]; [exfalso; lra|].
    destruct (IH e (ex_intro _ z (conj Hz L))) as (i & y & Hy & Ly & F).
    exists (S i), y. split; [|split]; auto. intros [|j] w J Hw.
    + simpl in Hw. inversion Hw; subst. lra.
    + apply (F j w); auto. lia.
  - exists O, h. split; [|split]; auto. intros; lia.
Qed.

Lemma requested_applied : forall p b s x c m e, 0 < c -> mesh p b s x c = Some m ->
  requested p b s x e -> exists i, maps_to (nodes_of m) e i.
Proof.
  intros p b s x c m e C M R. apply first_hit.
  destruct (mesh_contains_requested p b s x c m e C M R) as (y & Hy & E).
  exists (round4 y). split; [unfold nodes_of; apply in_map; auto|].
  rewrite (round4_comp y e E). pose proof (round4_bound e). pose proof (Qabs_nonneg e). lra.
Qed.

(** ... and at that elevation's own node when the nodes are further apart than the tolerance *)
Lemma requested_own_node : forall p b s x c m e g, 0 < c -> mesh p b s x c = Some m ->
  requested p b s x e -> 0.0011 + 0.00001 * Qabs e <= g -> g < c / 2 ->
  (forall y z, contains (primary p b s x) y -> contains (primary p b s x) z -> y < z -> g < z - y) ->
  exists i, maps_to (nodes_of m) e i /\ nth_error (nodes_of m) i = Some (round4 e).
Proof.
  intros p b s x c m e g C M R G G2 SEP.
  pose proof (Qabs_nonneg e) as AE.
  destruct (requested_applied p b s x c m e C M R) as (i & HM). exists i. split; auto.
  destruct HM as (z & Hz & L & _).
  destruct (mesh_contains_requested p b s x c m e C M R) as (y & Hy & E).
  apply In_nth_error in Hy. destruct Hy as (j & Hj).
  unfold nodes_of in *. rewrite nth_error_map in Hz. destruct (nth_error m i) as [w|] eqn:W; [|discriminate].
  simpl in Hz. assert (Z : z = round4 w) by congruence. subst z.
  rewrite nth_error_map, W. simpl. f_equal.
  pose proof (round4_bound w) as RB. apply Qabs_Qle_condition in RB. apply Qabs_Qle_condition in L.
  assert (STEP : forall k u v, nth_error m k = Some u -> nth_error m (S k) = Some v -> g < u - v).
  { intros k u v U V. apply (mesh_spacing_low p b s x c m g k u v); auto. lra. }
  assert (FAR : forall n k u v, nth_error m k = Some u -> nth_error m (k + S n)%nat = Some v -> g < u - v).
  { induction n as [|n IHn]; intros k u v U V.
    - replace (k + 1)%nat with (S k) in V by lia. eauto.
    - destruct (nth_error m (k + S n)) as [q|] eqn:Q1.
      + specialize (IHn k u q U Q1). replace (k + S (S n))%nat with (S (k + S n)) in V by lia.
        specialize (STEP _ _ _ Q1 V). lra.
      + exfalso. apply nth_error_None in Q1. assert (k + S (S n) < length m)%nat; [|lia].
        apply nth_error_Some. congruence. }
  destruct (lt_eq_lt_dec i j) as [[LT|EQ]|GT].
  - exfalso. specialize (FAR (j - S i)%nat i w y W). replace (i + S (j - S i))%nat with j in FAR by lia.
    specialize (FAR Hj). lra.
  - subst j. assert (w = y) by congruence. subst. apply round4_comp; auto.
  - exfalso. specialize (FAR (i - S j)%nat j y w Hj). replace (j + S (i - S j))%nat with i in FAR by lia.
    specialize (FAR W). lra.
Qed.

Lemma primary_requested : forall p b s x y, contains (primary p b s x) y <->
  requested p b s x y \/
  (y == b /\ exists ls l, s = Some ls /\ In l ls /\ (l_top l < b \/ l_bottom l < b)).
Proof.
  intros p b s x y. rewrite primary_contains, pile_elevations_contains. unfold requested. split.
  - intros [H|[H|H]]; auto. destruct s as [ls|]; [|destruct (contains_nil _ H)].
    apply soil_elevations_contains in H. destruct H as [(l & H)|(E & l & H)].
    + left; right; left. exists ls, l. tauto.
    + right. split; auto. exists ls, l. tauto.
  - intros [[H|[(ls & l & -> & H)|H]]|(E & ls & l & -> & H)]; auto.
    + right; left. apply soil_elevations_contains. left. exists l. tauto.
    + right; left. apply soil_elevations_contains. right. split; auto. exists l. tauto.
Qed.

(** ** Witnesses *)

Definition w_pile := [mkSection 0 (-10) 1 1 1 1 1 1 1].

Lemma zero_length_element : exists p b s x c m e, 0.01 <= c /\
  mesh p b s x c = Some m /\ In e (elements_of m) /\ fst e - snd e == 0.
Proof.
  exists w_pile, (-10), None, [-5; -5.00001], 10. eexists _, (-50000 # 10000, -50000 # 10000).
  split; [vm_compute; discriminate|]. split; [vm_compute; reflexivity|].
  split; [|vm_compute; reflexivity]. vm_compute. right; left; reflexivity.
Qed.

Lemma soil_above_pile : exists l p t b soil c m z,
  proper l /\ make_pile l = Ok p /\ pile_top p = Ok t /\ pile_bottom p = Ok b /\
  mesh p b (Some soil) [] c = Some m /\ In z (nodes_of m) /\ t < z.
Proof.
  exists w_pile, w_pile, 0, (-10), [mkLayer 1 (-20) 18], 10. eexists _, _.
  split; [intros s [<-|[]]; reflexivity|]. split; [vm_compute; reflexivity|].
  split; [reflexivity|]. split; [reflexivity|]. split; [vm_compute; reflexivity|].
  split; [left; reflexivity|vm_compute; reflexivity].
Qed.

Lemma x2mesh_below_tip : exists l p b x c m z,
  proper l /\ make_pile l = Ok p /\ pile_bottom p = Ok b /\
  mesh p b None x c = Some m /\ In z (nodes_of m) /\ z < b.
Proof.
  exists w_pile, w_pile, (-10), [-12], 10. eexists _, (round4 (-12)).
  split; [intros s [<-|[]]; reflexivity|]. split; [vm_compute; reflexivity|].
  split; [reflexivity|]. split; [vm_compute; reflexivity|].
  split; [|vm_compute; reflexivity]. vm_compute. right; right; left; reflexivity.
Qed.

Lemma wrong_node : exists p b x c m e i,
  0.01 <= c /\ mesh p b None x c = Some m /\ requested p b None x e /\ In e (nodes_of m) /\
  first_close (nodes_of m) e = Some i /\ nth i (nodes_of m) e <> e /\ ~ nth i (nodes_of m) e == e.
Proof.
  exists w_pile, (-10), [-5; -50005 # 10000], 10. eexists _, (-50005 # 10000), 1%nat.
  split; [vm_compute; discriminate|]. split; [vm_compute; reflexivity|].
  split. { right; right. exists (-50005 # 10000). split; [right; left|]; reflexivity. }
  split; [vm_compute; right; right; left; reflexivity|].
  split; [vm_compute; reflexivity|]. split; vm_compute; discriminate.
Qed.

Lemma dropped : exists p b c m e,
  0.01 <= c /\ mesh p b None [] c = Some m /\ b < e /\ e < 0 /\ pile_top p = Ok 0 /\
  first_close (nodes_of m) e = None.
Proof.
  exists w_pile, (-10), 2. eexists _, (-3).
  split; [vm_compute; discriminate|]. split; [vm_compute; reflexivity|].
  split; [reflexivity|]. split; [reflexivity|]. split; [reflexivity|]. vm_compute. reflexivity.
Qed.
