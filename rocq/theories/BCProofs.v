From Coq Require Import List Bool Arith ZArith QArith Qabs Qround Lia Lqa.
From Verif Require Import Base BCModel BCSpec.
Import ListNotations.
Local Open Scope Q_scope.

Lemma kind_eqb_eq : forall a b, kind_eqb a b = true <-> a = b.
Proof. intros [] []; simpl; split; congruence. Qed.

Lemma kind_eqb_refl : forall a, kind_eqb a a = true.
Proof. intros []; reflexivity. Qed.

Lemma selects_iff : forall k e b, selects k e b = true <-> at_place k e b.
Proof.
  intros k e b; unfold selects, at_place. rewrite andb_true_iff, Qeqb_true, kind_eqb_eq. tauto.
Qed.

(** Selecting the same place by an equal elevation. *)
Lemma selects_ext : forall k e e' b, e == e' -> selects k e b = selects k e' b.
Proof.
  intros k e e' b H. unfold selects. f_equal.
  destruct (Qeq_bool (bc_elev b) e) eqn:E; symmetry.
  - apply Qeqb_true. apply Qeqb_true in E. rewrite E; auto.
  - apply Qeqb_false. apply Qeqb_false in E. rewrite <- H; auto.
Qed.

Definition Uniq (l : list bc) : Prop := forall k e, (length (filter (selects k e) l) <= 1)%nat.

Lemma Uniq_nil : Uniq [].
Proof. intros k e; simpl; lia. Qed.

Lemma selects_merge : forall k e x y z b, selects k e (merge_bc x y z b) = selects k e b.
Proof. reflexivity. Qed.

Lemma update_selected_filter_length : forall k e x y z k' e' l,
  length (filter (selects k' e') (update_selected k e (merge_bc x y z) l)) =
  length (filter (selects k' e') l).
Proof.
  intros k e x y z k' e' l; induction l as [|b t IH]; simpl; auto.
  assert (Hs : selects k' e' (if selects k e b then merge_bc x y z b else b) = selects k' e' b)
    by (destruct (selects k e b); auto using selects_merge).
  rewrite Hs. destruct (selects k' e' b); simpl; rewrite IH; auto.
Qed.

Lemma selects_both : forall k e k' e' b,
  selects k e b = true -> selects k' e' b = true -> k = k' /\ e == e'.
Proof.
  intros k e k' e' b H1 H2. apply selects_iff in H1, H2. destruct H1, H2. split.
  - congruence.
  - rewrite <- H0; auto.
Qed.

Lemma Uniq_update : forall l e x y z k, Uniq l -> Uniq (update_bc l e x y z k).
Proof.
  intros l e x y z k U k' e'. unfold update_bc.
  destruct (Nat.eqb (length (filter (selects k e) l)) 1) eqn:E.
  - rewrite update_selected_filter_length. apply U.
  - rewrite filter_app, app_length. simpl.
    destruct (selects k' e' (mkBC k e x y z)) eqn:S; simpl; [|specialize (U k' e'); lia].
    apply selects_iff in S. destruct S as [S1 S2]; simpl in *. subst k'.
    assert (F : filter (selects k e') l = filter (selects k e) l).
    { apply filter_ext. intros b. apply selects_ext. symmetry; auto. }
    rewrite F. apply Nat.eqb_neq in E. specialize (U k e). lia.
Qed.

Lemma Uniq_exec : forall l c, Uniq l -> Uniq (exec l c).
Proof. intros l [] U; simpl; apply Uniq_update; auto. Qed.

Lemma Uniq_run : forall h l, Uniq l -> Uniq (run h l).
Proof.
  unfold run. induction h as [|c h IH]; simpl; intros l U; auto.
  apply IH, Uniq_exec, U.
Qed.

Lemma Uniq_one_per_place : forall l, Uniq l -> one_per_place l.
Proof.
  intros l U i j b c Hi Hj Hk He.
  destruct (Nat.eq_dec i j) as [|N]; auto. exfalso.
  assert (G : forall l i j b c, nth_error l i = Some b -> nth_error l j = Some c -> (i < j)%nat ->
              at_place (bc_kind b) (bc_elev b) c ->
              (2 <= length (filter (selects (bc_kind b) (bc_elev b)) l))%nat).
  { clear. induction l as [|a t IH]; intros i j b c Hi Hj L P; [destruct i; discriminate|].
    destruct i.
    - destruct j; [lia|]. simpl in Hi; inversion Hi; subst a. simpl.
      assert (S : selects (bc_kind b) (bc_elev b) b = true)
        by (apply selects_iff; split; reflexivity).
      rewrite S; simpl.
      simpl in Hj. apply nth_error_In in Hj.
      assert (In c (filter (selects (bc_kind b) (bc_elev b)) t))
        by (apply filter_In; split; auto; apply selects_iff; auto).
      destruct (filter (selects (bc_kind b) (bc_elev b)) t); simpl in *; [contradiction|lia].
    - destruct j; [lia|]. simpl in Hi, Hj.
      specialize (IH i j b c Hi Hj ltac:(lia) P). simpl.
      destruct (selects _ _ a); simpl; lia. }
  destruct (Nat.lt_ge_cases i j) as [L|L].
  - specialize (G l i j b c Hi Hj L). specialize (U (bc_kind b) (bc_elev b)).
    assert (at_place (bc_kind b) (bc_elev b) c) by (split; [congruence | symmetry; auto]).
    specialize (G H). lia.
  - specialize (G l j i c b Hj Hi ltac:(lia)). specialize (U (bc_kind c) (bc_elev c)).
    assert (at_place (bc_kind c) (bc_elev c) b) by (split; auto).
    specialize (G H). lia.
Qed.

(** ** Last write wins *)

Definition lookup (l : list bc) (k : kind) (e : Q) (a : axis) : option Q :=
  match find (selects k e) l with Some b => get_axis a b | None => None end.

Lemma holds_lookup : forall l k e a q, Uniq l -> (holds l k e a q <-> lookup l k e a = Some q).
Proof.
  intros l k e a q U. unfold holds, lookup. split.
  - intros (b & Hin & Hp & Hv).
    specialize (U k e). revert U Hin. induction l as [|c t IH]; simpl; intros U Hin; [contradiction|].
    destruct (selects k e c) eqn:S.
    + simpl in U. destruct Hin as [->|Hin]; auto.
      exfalso. assert (In b (filter (selects k e) t))
        by (apply filter_In; split; auto; apply selects_iff; auto).
      destruct (filter (selects k e) t); simpl in *; [contradiction|lia].
    + destruct Hin as [->|Hin]; [apply selects_iff in Hp; congruence|].
      apply IH; auto.
  - destruct (find (selects k e) l) as [b|] eqn:F; [|discriminate].
    intros Hv. apply find_some in F. destruct F as [Hin S]. exists b.
    apply selects_iff in S. auto.
Qed.

Definition ax_arg (a : axis) (x y z : option Q) : option Q :=
  match a with AX => x | AY => y | AZ => z end.

Lemma find_update_selected_same : forall k e x y z l,
  find (selects k e) (update_selected k e (merge_bc x y z) l) =
  option_map (merge_bc x y z) (find (selects k e) l).
Proof.
  intros k e x y z l; induction l as [|b t IH]; simpl; auto.
  destruct (selects k e b) eqn:S.
  - rewrite selects_merge, S. reflexivity.
  - rewrite S. auto.
Qed.

Lemma find_update_selected_other : forall k e x y z k' e' l,
  ~ (k = k' /\ e == e') ->
  find (selects k' e') (update_selected k e (merge_bc x y z) l) = find (selects k' e') l.
Proof.
  intros k e x y z k' e' l N; induction l as [|b t IH]; simpl; auto.
  destruct (selects k e b) eqn:S.
  - rewrite selects_merge. destruct (selects k' e' b) eqn:S'; auto.
    exfalso. apply N. eapply selects_both; eauto.
  - rewrite IH. reflexivity.
Qed.

Lemma find_app : forall A (f : A -> bool) l1 l2,
  find f (l1 ++ l2) = match find f l1 with Some x => Some x | None => find f l2 end.
Proof. induction l1; simpl; intros; auto. destruct (f a); auto. Qed.

Lemma filter_nil_find_none : forall A (f : A -> bool) l, filter f l = [] -> find f l = None.
Proof.
  induction l; simpl; auto. destruct (f a); [discriminate|auto].
Qed.

Lemma lookup_ext : forall l k e e' a, e == e' -> lookup l k e a = lookup l k e' a.
Proof.
  intros. unfold lookup.
  assert (find (selects k e) l = find (selects k e') l) as ->; auto.
  induction l; simpl; auto. rewrite (selects_ext k e e'); auto. destruct (selects k e' a0); auto.
Qed.

Lemma lookup_update_same : forall l e x y z k a, Uniq l ->
  lookup (update_bc l e x y z k) k e a = merge_val (ax_arg a x y z) (lookup l k e a).
Proof.
  intros l e x y z k a U. unfold update_bc, lookup.
  destruct (Nat.eqb (length (filter (selects k e) l)) 1) eqn:E.
  - rewrite find_update_selected_same.
    destruct (find (selects k e) l) as [b|] eqn:F; simpl.
    + destruct a; reflexivity.
    + apply Nat.eqb_eq in E. destruct (filter (selects k e) l) as [|b t] eqn:G; [discriminate|].
      assert (In b (filter (selects k e) l)) by (rewrite G; left; auto).
      apply filter_In in H. destruct H as [H1 H2].
      pose proof (find_none _ _ F b H1). congruence.
  - apply Nat.eqb_neq in E. specialize (U k e).
    assert (G : filter (selects k e) l = [])
      by (destruct (filter (selects k e) l) as [|b [|]]; simpl in *; auto; lia).
    rewrite find_app, (filter_nil_find_none _ _ _ G). simpl.
    assert (S : selects k e (mkBC k e x y z) = true) by (apply selects_iff; split; reflexivity).
    rewrite S. destruct a; simpl; [destruct x|destruct y|destruct z]; reflexivity.
Qed.

Lemma lookup_update_other : forall l e x y z k k' e' a,
  ~ (k = k' /\ e == e') ->
  lookup (update_bc l e x y z k) k' e' a = lookup l k' e' a.
Proof.
  intros l e x y z k k' e' a N. unfold update_bc, lookup.
  destruct (Nat.eqb (length (filter (selects k e) l)) 1) eqn:E.
  - rewrite find_update_selected_other; auto.
  - rewrite find_app. destruct (find (selects k' e') l); auto. simpl.
    destruct (selects k' e' (mkBC k e x y z)) eqn:S; auto.
    exfalso. apply selects_iff in S. destruct S as [S1 S2]; simpl in *. apply N; auto.
Qed.

Lemma exec_as_update : forall l c,
  exec l c = update_bc l (call_elev c) (call_val AX c) (call_val AY c) (call_val AZ c) (call_kind c).
Proof. intros l []; reflexivity. Qed.

Lemma ax_arg_call : forall a c, ax_arg a (call_val AX c) (call_val AY c) (call_val AZ c) = call_val a c.
Proof. intros [] c; reflexivity. Qed.

Lemma place_dec : forall (k : kind) e (k' : kind) e', {k = k' /\ e == e'} + {~ (k = k' /\ e == e')}.
Proof.
  intros k e k' e'. destruct (kind_eqb k k') eqn:K.
  - apply kind_eqb_eq in K. destruct (Qeq_dec e e'); [left|right]; tauto.
  - right. intros [C _]. apply kind_eqb_eq in C. congruence.
Qed.

Lemma run_snoc : forall h c l, run (h ++ [c]) l = exec (run h l) c.
Proof. intros. unfold run. rewrite fold_left_app. reflexivity. Qed.

Lemma lookup_run_last : forall h k e a q,
  lookup (run h []) k e a = Some q <-> last_given h k e a q.
Proof.
  intros h k e a. induction h as [|c h IH] using rev_ind; intros q.
  - simpl. split; [discriminate|].
    intros (h1 & c & h2 & E & _). destruct h1; discriminate.
  - rewrite run_snoc, exec_as_update.
    assert (U : Uniq (run h [])) by (apply Uniq_run, Uniq_nil).
    destruct (place_dec (call_kind c) (call_elev c) k e) as [[Pk Pe]|N].
    + rewrite <- (lookup_ext _ _ (call_elev c)) by auto. subst k.
      rewrite lookup_update_same, ax_arg_call by auto.
      rewrite (lookup_ext _ _ (call_elev c) e) by auto.
      destruct (call_val a c) as [v|] eqn:V; simpl.
      * split.
        -- intros H; inversion H; subst v. exists h, c, []. repeat split; auto.
        -- intros (h1 & c1 & h2 & E & (G1 & G2 & G3) & L).
           destruct h2 as [|y h2 _] using rev_ind.
           ++ apply app_inj_tail in E. destruct E as [_ <-]. congruence.
           ++ exfalso. rewrite app_comm_cons, app_assoc in E. apply app_inj_tail in E.
              destruct E as [_ <-]. apply (L c v); [apply in_or_app; right; left; auto|].
              repeat split; auto.
      * rewrite IH. split.
        -- intros (h1 & c1 & h2 & E & G & L). subst h. exists h1, c1, (h2 ++ [c]).
           split; [rewrite <- app_assoc; reflexivity|]. split; auto.
           intros c' q' Hin. apply in_app_or in Hin. destruct Hin as [Hin|[<-|[]]]; eauto.
           intros (_ & _ & C). congruence.
        -- intros (h1 & c1 & h2 & E & G & L).
           destruct h2 as [|y h2 _] using rev_ind.
           ++ apply app_inj_tail in E. destruct E as [_ <-]. destruct G as (_ & _ & C). congruence.
           ++ rewrite app_comm_cons, app_assoc in E. apply app_inj_tail in E. destruct E as [-> <-].
              exists h1, c1, h2. repeat split; try apply G.
              intros c' q' Hin. apply L. apply in_or_app; auto.
    + rewrite lookup_update_other by auto. rewrite IH. split.
      * intros (h1 & c1 & h2 & E & G & L). subst h. exists h1, c1, (h2 ++ [c]).
        split; [rewrite <- app_assoc; reflexivity|]. split; auto.
        intros c' q' Hin. apply in_app_or in Hin. destruct Hin as [Hin|[<-|[]]]; eauto.
        intros (C1 & C2 & _). tauto.
      * intros (h1 & c1 & h2 & E & G & L).
        destruct h2 as [|y h2 _] using rev_ind.
        -- apply app_inj_tail in E. destruct E as [_ <-]. destruct G as (C1 & C2 & _). tauto.
        -- rewrite app_comm_cons, app_assoc in E. apply app_inj_tail in E. destruct E as [-> <-].
           exists h1, c1, h2. repeat split; try apply G.
           intros c' q' Hin. apply L. apply in_or_app; auto.
Qed.

Lemma last_write_wins : forall h k e a q,
  holds (run h []) k e a q <-> last_given h k e a q.
Proof.
  intros. rewrite holds_lookup by (apply Uniq_run, Uniq_nil). apply lookup_run_last.
Qed.

(** ** Frame *)

Definition elsewhere (k : kind) (e : Q) (b : bc) : bool := negb (selects k e b).

Lemma update_frame : forall l e x y z k,
  filter (elsewhere k e) (update_bc l e x y z k) = filter (elsewhere k e) l.
Proof.
  intros. unfold update_bc.
  destruct (Nat.eqb _ 1).
  - induction l as [|b t IH]; simpl; auto. unfold elsewhere in *.
    destruct (selects k e b) eqn:S.
    + rewrite selects_merge, S. simpl. auto.
    + rewrite S. simpl. rewrite IH. reflexivity.
  - rewrite filter_app. simpl. unfold elsewhere at 2.
    assert (S : selects k e (mkBC k e x y z) = true) by (apply selects_iff; split; reflexivity).
    rewrite S. simpl. apply app_nil_r.
Qed.

Lemma exec_frame : forall l c,
  filter (elsewhere (call_kind c) (call_elev c)) (exec l c) =
  filter (elsewhere (call_kind c) (call_elev c)) l.
Proof. intros. rewrite exec_as_update. apply update_frame. Qed.

Lemma update_selected_nth : forall k e f l i b, nth_error l i = Some b ->
  nth_error (update_selected k e f l) i = Some (if selects k e b then f b else b).
Proof.
  induction l as [|a t IH]; intros [|i] b H; simpl in *; try discriminate.
  - inversion H; reflexivity.
  - apply IH; auto.
Qed.

(** Positionally: every element of the old list is still there at its index, unchanged when it
    is at another place. *)
Lemma exec_frame_nth : forall l c i b, nth_error l i = Some b ->
  ~ at_place (call_kind c) (call_elev c) b -> nth_error (exec l c) i = Some b.
Proof.
  intros l c i b H N. rewrite exec_as_update. unfold update_bc.
  assert (S : selects (call_kind c) (call_elev c) b = false).
  { destruct (selects (call_kind c) (call_elev c) b) eqn:S; auto. apply selects_iff in S. tauto. }
  destruct (Nat.eqb _ 1).
  - rewrite (update_selected_nth _ _ _ _ _ b); auto. rewrite S; auto.
  - rewrite nth_error_app1; auto. apply nth_error_Some. congruence.
Qed.

(** ** validate_bc *)

Section Dedup.
  Context {A : Type} (eqb : A -> A -> bool).
  Hypothesis eqb_refl : forall a, eqb a a = true.
  Hypothesis eqb_sym : forall a b, eqb a b = eqb b a.
  Hypothesis eqb_trans : forall a b c, eqb a b = true -> eqb b c = true -> eqb a c = true.

  Lemma dedup_incl : forall l a, In a (dedup eqb l) -> In a l.
  Proof.
    induction l as [|h t IH]; simpl; intros a H; auto.
    destruct (existsb (eqb h) t); auto. destruct H; auto.
  Qed.

  Lemma dedup_covers : forall l a, In a l -> exists b, In b (dedup eqb l) /\ eqb a b = true.
  Proof.
    induction l as [|h t IH]; simpl; intros a H; [contradiction|].
    destruct H as [<-|H].
    - destruct (existsb (eqb h) t) eqn:E.
      + apply existsb_exists in E. destruct E as (b & Hb & E).
        destruct (IH b Hb) as (c & Hc & E'). exists c. split; eauto.
      + exists h. split; [left|]; auto.
    - destruct (IH a H) as (b & Hb & E). exists b. split; auto.
      destruct (existsb (eqb h) t); auto. right; auto.
  Qed.

  Lemma dedup_length : forall l, (length (dedup eqb l) <= length l)%nat.
  Proof.
    induction l; simpl; auto. destruct (existsb (eqb a) l); simpl; lia.
  Qed.

  (** dedup keeps the length iff no two positions are equal *)
  Lemma dedup_length_eq : forall l,
    length (dedup eqb l) = length l <->
    ForallOrdPairs (fun a b => eqb a b = false) l.
  Proof.
    induction l as [|h t IH]; simpl; split; intros H.
    - constructor.
    - auto.
    - destruct (existsb (eqb h) t) eqn:E.
      + pose proof (dedup_length t). lia.
      + simpl in H. constructor; [|apply IH; lia].
        apply Forall_forall. intros x Hx.
        destruct (eqb h x) eqn:F; auto. assert (existsb (eqb h) t = true); [|congruence].
        apply existsb_exists; eauto.
    - inversion H; subst.
      assert (existsb (eqb h) t = false) as ->.
      { destruct (existsb (eqb h) t) eqn:E; auto. apply existsb_exists in E.
        destruct E as (x & Hx & E). rewrite Forall_forall in H2. specialize (H2 x Hx). congruence. }
      simpl. f_equal. apply IH; auto.
  Qed.

  Lemma dedup_distinct : forall l, ForallOrdPairs (fun a b => eqb a b = false) (dedup eqb l).
  Proof.
    induction l as [|h t IH]; simpl; [constructor|].
    destruct (existsb (eqb h) t) eqn:E; auto. constructor; auto.
    apply Forall_forall. intros x Hx. apply dedup_incl in Hx.
    destruct (eqb h x) eqn:F; auto. assert (existsb (eqb h) t = true); [|congruence].
    apply existsb_exists; eauto.
  Qed.
End Dedup.

Lemma opt_eqb_iff : forall a b, opt_eqb a b = true <-> opt_eq a b.
Proof.
  intros [x|] [y|]; simpl; try (split; [congruence|tauto]).
  - apply Qeqb_true.
  - tauto.
Qed.

Lemma opt_eq_refl : forall a, opt_eq a a.
Proof. intros [x|]; simpl; auto. reflexivity. Qed.

Lemma opt_eq_sym : forall a b, opt_eq a b -> opt_eq b a.
Proof. intros [x|] [y|]; simpl; auto. intros; symmetry; auto. Qed.

Lemma opt_eq_trans : forall a b c, opt_eq a b -> opt_eq b c -> opt_eq a c.
Proof. intros [x|] [y|] [z|]; simpl; try tauto. intros; rewrite H; auto. Qed.

Lemma pair_eqb_iff : forall p q, pair_eqb p q = true <-> fst p == fst q /\ opt_eq (snd p) (snd q).
Proof. intros. unfold pair_eqb. rewrite andb_true_iff, Qeqb_true, opt_eqb_iff. tauto. Qed.

Lemma pair_eqb_refl : forall p, pair_eqb p p = true.
Proof. intros; apply pair_eqb_iff; split; [reflexivity|apply opt_eq_refl]. Qed.

Lemma pair_eqb_sym : forall p q, pair_eqb p q = pair_eqb q p.
Proof.
  assert (forall p q, pair_eqb p q = true -> pair_eqb q p = true).
  { intros p q H. apply pair_eqb_iff in H. apply pair_eqb_iff. destruct H.
    split; [symmetry; auto | apply opt_eq_sym; auto]. }
  intros p q. destruct (pair_eqb p q) eqn:E, (pair_eqb q p) eqn:F; auto.
  - apply H in E; congruence.
  - apply H in F; congruence.
Qed.

Lemma pair_eqb_trans : forall p q r,
  pair_eqb p q = true -> pair_eqb q r = true -> pair_eqb p r = true.
Proof.
  intros p q r H1 H2. apply pair_eqb_iff in H1, H2. apply pair_eqb_iff.
  destruct H1, H2. split; [rewrite H; auto | eapply opt_eq_trans; eauto].
Qed.

Lemma ForallOrdPairs_map : forall A B (f : A -> B) (R : B -> B -> Prop) l,
  ForallOrdPairs R (map f l) <-> ForallOrdPairs (fun a b => R (f a) (f b)) l.
Proof.
  induction l as [|h t IH]; simpl; split; intros H; try (constructor; fail).
  - inversion H as [|? ? F P]; subst. constructor; [rewrite Forall_map in F; exact F | apply IH; auto].
  - inversion H as [|? ? F P]; subst. constructor; [rewrite Forall_map; exact F | apply IH; auto].
Qed.

Lemma axis_flag_iff : forall l k a, axis_flag l k a = true <->
  exists b c, In b l /\ In c l /\ bc_kind b = k /\ bc_kind c = k /\
    bc_elev b == bc_elev c /\ ~ opt_eq (get_axis a b) (get_axis a c).
Proof.
  intros l k a. unfold axis_flag.
  set (f := fun b => (bc_elev b, get_axis a b)).
  set (src := map f (filter (fun b => kind_eqb (bc_kind b) k) l)).
  set (cl := dedup pair_eqb src).
  assert (SRC : forall p, In p src <-> exists b, In b l /\ bc_kind b = k /\ p = f b).
  { intros p. unfold src. rewrite in_map_iff. split.
    - intros (b & E & H). apply filter_In in H. destruct H. apply kind_eqb_eq in H0. eauto.
    - intros (b & H & K & E). exists b. split; auto. apply filter_In. split; auto. apply kind_eqb_eq; auto. }
  assert (FOP : length (dedup Qeq_bool (map fst cl)) = length (map fst cl) <->
                ForallOrdPairs (fun p q => Qeq_bool (fst p) (fst q) = false) cl).
  { rewrite dedup_length_eq. apply ForallOrdPairs_map. }
  assert (MAIN : (exists b c, In b l /\ In c l /\ bc_kind b = k /\ bc_kind c = k /\
            bc_elev b == bc_elev c /\ ~ opt_eq (get_axis a b) (get_axis a c)) <->
           ~ ForallOrdPairs (fun p q => Qeq_bool (fst p) (fst q) = false) cl).
  { split.
    - intros (b & c & Hb & Hc & Kb & Kc & E & N) F.
      assert (In (f b) src) as Ib by (apply SRC; eauto).
      assert (In (f c) src) as Ic by (apply SRC; eauto).
      destruct (dedup_covers pair_eqb pair_eqb_refl pair_eqb_trans src _ Ib) as (p & Hp & Ep).
      destruct (dedup_covers pair_eqb pair_eqb_refl pair_eqb_trans src _ Ic) as (q & Hq & Eq).
      apply pair_eqb_iff in Ep, Eq. destruct Ep as [Ep1 Ep2], Eq as [Eq1 Eq2]. simpl in *.
      assert (Efq : fst p == fst q) by (rewrite <- Ep1, <- Eq1; auto).
      assert (p <> q).
      { intros ->. apply N. eapply opt_eq_trans; eauto. apply opt_eq_sym; auto. }
      destruct (ForallOrdPairs_In F p q Hp Hq) as [C|[C|C]]; try tauto.
      + apply Qeqb_true in Efq. congruence.
      + symmetry in Efq. apply Qeqb_true in Efq. congruence.
    - intros N.
      assert (X : exists p q, In p cl /\ In q cl /\ fst p == fst q /\ pair_eqb p q = false).
      { assert (D : ForallOrdPairs (fun p q => pair_eqb p q = false) cl) by apply dedup_distinct.
        clear - N D. induction cl as [|p t IH]; [exfalso; apply N; constructor|].
        inversion D; subst.
        destruct (existsb (fun q => Qeq_bool (fst p) (fst q)) t) eqn:E.
        - apply existsb_exists in E. destruct E as (q & Hq & E).
          exists p, q. simpl. rewrite Forall_forall in H1. apply Qeqb_true in E. auto.
        - destruct IH as (p' & q' & ?); auto.
          + intros C. apply N. constructor; auto. apply Forall_forall. intros q Hq.
            destruct (Qeq_bool (fst p) (fst q)) eqn:F; auto.
            assert (existsb (fun q => Qeq_bool (fst p) (fst q)) t = true); [|congruence].
            apply existsb_exists; eauto.
          + exists p', q'. simpl. tauto. }
      destruct X as (p & q & Hp & Hq & E & P).
      apply dedup_incl in Hp, Hq. apply SRC in Hp, Hq.
      destruct Hp as (b & Hb & Kb & ->), Hq as (c & Hc & Kc & ->). simpl in E.
      exists b, c. repeat split; auto. intros C.
      assert (pair_eqb (f b) (f c) = true); [|congruence]. apply pair_eqb_iff; auto. }
  rewrite MAIN.
  destruct (Nat.ltb 1 (length cl)) eqn:LT.
  - rewrite negb_true_iff, Nat.eqb_neq, FOP. tauto.
  - split; [discriminate|]. intros N. exfalso. apply N.
    apply Nat.ltb_ge in LT. destruct cl as [|p [|q t]]; simpl in LT; try lia.
    + constructor.
    + constructor; [constructor|constructor].
Qed.

Lemma validate_bc_iff : forall l k, validate_bc l k = Err ValueError <-> conflict l k.
Proof.
  intros l k. unfold validate_bc, conflict.
  destruct (axis_flag l k AX) eqn:FX; destruct (axis_flag l k AY) eqn:FY;
    destruct (axis_flag l k AZ) eqn:FZ; simpl; split; intros H; try discriminate; auto;
    try (apply axis_flag_iff in FX; destruct FX as (b & c & ?); exists b, c, AX; tauto);
    try (apply axis_flag_iff in FY; destruct FY as (b & c & ?); exists b, c, AY; tauto);
    try (apply axis_flag_iff in FZ; destruct FZ as (b & c & ?); exists b, c, AZ; tauto).
  exfalso. destruct H as (b & c & a & H). destruct a.
  - assert (axis_flag l k AX = true) by (apply axis_flag_iff; exists b, c; tauto). congruence.
  - assert (axis_flag l k AY = true) by (apply axis_flag_iff; exists b, c; tauto). congruence.
  - assert (axis_flag l k AZ = true) by (apply axis_flag_iff; exists b, c; tauto). congruence.
Qed.

Lemma validate_bc_ok_or : forall l k, validate_bc l k = Ok tt \/ validate_bc l k = Err ValueError.
Proof. intros. unfold validate_bc. destruct (_ || _ || _); auto. Qed.

Lemma one_per_place_no_conflict : forall l k, one_per_place l -> ~ conflict l k.
Proof.
  intros l k O (b & c & a & Hb & Hc & Kb & Kc & E & N).
  apply In_nth_error in Hb, Hc. destruct Hb as [i Hi], Hc as [j Hj].
  assert (i = j) by (apply (O i j b c); auto; congruence). subst j.
  assert (b = c) by congruence. subst. apply N, opt_eq_refl.
Qed.

Lemma run_never_conflicts : forall h k, validate_bc (run h []) k = Ok tt.
Proof.
  intros h k. destruct (validate_bc_ok_or (run h []) k) as [|E]; auto.
  apply validate_bc_iff in E. exfalso. revert E. apply one_per_place_no_conflict.
  apply Uniq_one_per_place, Uniq_run, Uniq_nil.
Qed.

Lemma run_one_per_place : forall h, one_per_place (run h []).
Proof. intros. apply Uniq_one_per_place, Uniq_run, Uniq_nil. Qed.

(** ** apply_bc *)

Lemma isclose_iff : forall z e, isclose z e = true <-> Qabs (z - e) <= 0.001 + 0.00001 * Qabs e.
Proof. intros. unfold isclose. apply Qleb_true. Qed.

Lemma first_close_iff : forall nodes e i, first_close nodes e = Some i <-> maps_to nodes e i.
Proof.
  induction nodes as [|z t IH]; intros e i; simpl.
  - split; [discriminate|]. intros (y & C & _). destruct i; discriminate.
  - destruct (isclose z e) eqn:C.
    + split.
      * intros H; inversion H; subst i. exists z. split; [reflexivity|].
        split; [apply isclose_iff; auto|]. intros j y L; lia.
      * intros (y & H & Hy & M). destruct i; auto. exfalso.
        apply (M O z); [lia|reflexivity|]. apply isclose_iff; auto.
    + split.
      * intros H. destruct (first_close t e) as [j|] eqn:F; [|discriminate].
        simpl in H; inversion H; subst i. apply IH in F. destruct F as (y & Hy & Cy & M).
        exists y. split; [exact Hy|]. split; auto. intros [|j'] w L Hw.
        -- simpl in Hw; inversion Hw; subst w. rewrite <- isclose_iff. congruence.
        -- apply (M j'); [lia|exact Hw].
      * intros (y & H & Hy & M). destruct i as [|i].
        -- simpl in H; inversion H; subst y. apply isclose_iff in Hy. congruence.
        -- assert (F : first_close t e = Some i).
           { apply IH. exists y. split; [exact H|]. split; auto.
             intros j w L Hw. apply (M (S j)); [lia|exact Hw]. }
           rewrite F. reflexivity.
Qed.

Lemma truthy_iff : forall v q, truthy v = Some q <-> v = Some q /\ ~ q == 0.
Proof.
  intros [v|] q; simpl; [|split; [discriminate|intros [C _]; discriminate]].
  destruct (Qeq_bool v 0) eqn:E.
  - apply Qeqb_true in E. split; [discriminate|]. intros [H N]. inversion H; subst. tauto.
  - apply Qeqb_false in E. split; [|intros [H _]; auto].
    intros H; inversion H; subst; auto.
Qed.

Lemma write_length : forall c l i v, length (write c l i v) = length l.
Proof. intros. unfold write. destruct (truthy v); auto using set_nth_length. Qed.

Lemma col_apply_one : forall cast nodes k t b a,
  col a (apply_one cast nodes k t b) =
  if kind_eqb (bc_kind b) k then
    match first_close nodes (bc_elev b) with
    | Some i => write cast (col a t) i (get_axis a b)
    | None => col a t
    end
  else col a t.
Proof.
  intros. unfold apply_one. destruct (kind_eqb _ _); auto.
  destruct (first_close _ _); auto. destruct a; reflexivity.
Qed.

Lemma apply_bc_snoc : forall cast nodes k l b t,
  apply_bc cast nodes k (l ++ [b]) t = apply_one cast nodes k (apply_bc cast nodes k l t) b.
Proof. intros. unfold apply_bc. rewrite fold_left_app. reflexivity. Qed.

Lemma apply_bc_col_length : forall cast nodes k l t a,
  length (col a (apply_bc cast nodes k l t)) = length (col a t).
Proof.
  intros cast nodes k l t a. induction l as [|b l IH] using rev_ind; auto.
  rewrite apply_bc_snoc, col_apply_one. destruct (kind_eqb _ _); auto.
  destruct (first_close _ _); auto. rewrite write_length; auto.
Qed.

Lemma zeros_col : forall nodes a, col a (zeros nodes) = map (fun _ => 0) nodes.
Proof. intros nodes []; reflexivity. Qed.

Lemma apply_bc_column : forall cast nodes k l a i, (i < length nodes)%nat ->
  (exists q, last_sent nodes k l i a q /\
     nth_error (col a (apply_bc cast nodes k l (zeros nodes))) i = Some (cast q)) \/
  ((forall b q, In b l -> ~ sends nodes k i a b q) /\
     nth_error (col a (apply_bc cast nodes k l (zeros nodes))) i = Some 0).
Proof.
  intros cast nodes k l a i L. induction l as [|b l IH] using rev_ind.
  - right. split; [intros b q []|]. simpl. rewrite zeros_col, nth_error_map.
    destruct (nth_error nodes i) eqn:E; auto. apply nth_error_None in E. lia.
  - rewrite apply_bc_snoc, col_apply_one.
    assert (D : (exists q, sends nodes k i a b q) \/ (forall q, ~ sends nodes k i a b q)).
    { unfold sends. destruct (kind_eqb (bc_kind b) k) eqn:K.
      - apply kind_eqb_eq in K.
        destruct (first_close nodes (bc_elev b)) as [j|] eqn:F.
        + destruct (Nat.eq_dec j i) as [->|N].
          * apply first_close_iff in F.
            destruct (truthy (get_axis a b)) as [q|] eqn:T.
            -- apply truthy_iff in T. left; exists q; tauto.
            -- right. intros q (_ & _ & H & Z). assert (truthy (get_axis a b) = Some q); [|congruence].
               apply truthy_iff; auto.
          * right. intros q (_ & M & _). apply first_close_iff in M. congruence.
        + right. intros q (_ & M & _). apply first_close_iff in M. congruence.
      - right. intros q (C & _). apply kind_eqb_eq in C. congruence. }
    destruct D as [[q S]|N].
    + left. exists q. split.
      * exists l, b, []. split; [reflexivity|]. split; [exact S|]. intros b' q' [].
      * destruct S as (K & M & V & Z). apply kind_eqb_eq in K. rewrite K.
        apply first_close_iff in M. rewrite M. unfold write.
        assert (T : truthy (get_axis a b) = Some q) by (apply truthy_iff; auto).
        rewrite T, nth_error_set_nth, Nat.eqb_refl, apply_bc_col_length, zeros_col, map_length.
        apply Nat.ltb_lt in L. rewrite L. reflexivity.
    + assert (E : nth_error (if kind_eqb (bc_kind b) k
               then match first_close nodes (bc_elev b) with
                    | Some j => write cast (col a (apply_bc cast nodes k l (zeros nodes))) j (get_axis a b)
                    | None => col a (apply_bc cast nodes k l (zeros nodes)) end
               else col a (apply_bc cast nodes k l (zeros nodes))) i =
               nth_error (col a (apply_bc cast nodes k l (zeros nodes))) i).
      { destruct (kind_eqb (bc_kind b) k) eqn:K; auto.
        destruct (first_close nodes (bc_elev b)) as [j|] eqn:F; auto.
        unfold write. destruct (truthy (get_axis a b)) as [q|] eqn:T; auto.
        rewrite nth_error_set_nth. destruct (Nat.eqb j i) eqn:J; auto.
        exfalso. apply Nat.eqb_eq in J; subst j. apply (N q).
        apply kind_eqb_eq in K. apply first_close_iff in F. apply truthy_iff in T.
        unfold sends; tauto. }
      rewrite E. destruct IH as [(q & (l1 & c & l2 & El & S & M) & V)|(M & V)].
      * left. exists q. split; auto. exists l1, c, (l2 ++ [b]). subst l.
        split; [rewrite <- app_assoc; reflexivity|]. split; auto.
        intros b' q' H. apply in_app_or in H. destruct H as [H|[<-|[]]]; eauto.
      * right. split; auto. intros b' q' H. apply in_app_or in H. destruct H as [H|[<-|[]]]; eauto.
Qed.

Lemma last_sent_unique : forall nodes k l i a q q',
  last_sent nodes k l i a q -> last_sent nodes k l i a q' -> q = q'.
Proof.
  intros nodes k l i a q q' (l1 & b & l2 & E & S & M) (l1' & b' & l2' & E' & S' & M').
  subst l. revert l1' E'. induction l1 as [|h t IH]; intros [|h' t'] E'; simpl in E'; inversion E'; subst.
  - destruct S as (_ & _ & V & _), S' as (_ & _ & V' & _). congruence.
  - exfalso. apply (M b' q'); auto. apply in_or_app; right; left; auto.
  - exfalso. apply (M' b q); auto. apply in_or_app; right; left; auto.
  - eapply IH; eauto.
Qed.

Lemma apply_bc_sent : forall cast nodes k l a i q, (i < length nodes)%nat ->
  last_sent nodes k l i a q ->
  nth_error (col a (apply_bc cast nodes k l (zeros nodes))) i = Some (cast q).
Proof.
  intros cast nodes k l a i q L S.
  destruct (apply_bc_column cast nodes k l a i L) as [(q' & S' & V)|(N & _)].
  - rewrite (last_sent_unique _ _ _ _ _ _ _ S S'). auto.
  - exfalso. destruct S as (l1 & b & l2 & -> & S & _). apply (N b q); auto.
    apply in_or_app; right; left; auto.
Qed.

Lemma apply_bc_not_sent : forall cast nodes k l a i, (i < length nodes)%nat ->
  (forall b q, In b l -> ~ sends nodes k i a b q) ->
  nth_error (col a (apply_bc cast nodes k l (zeros nodes))) i = Some 0.
Proof.
  intros cast nodes k l a i L N.
  destruct (apply_bc_column cast nodes k l a i L) as [(q & (l1 & b & l2 & -> & S & _) & _)|(_ & V)]; auto.
  exfalso. apply (N b q); auto. apply in_or_app; right; left; auto.
Qed.

(** Frame for one boundary condition: every other node keeps its value. *)
Lemma apply_one_frame : forall cast nodes k t b a j,
  ~ (bc_kind b = k /\ maps_to nodes (bc_elev b) j) ->
  nth_error (col a (apply_one cast nodes k t b)) j = nth_error (col a t) j.
Proof.
  intros cast nodes k t b a j N. rewrite col_apply_one.
  destruct (kind_eqb (bc_kind b) k) eqn:K; auto. apply kind_eqb_eq in K.
  destruct (first_close nodes (bc_elev b)) as [i|] eqn:F; auto. apply first_close_iff in F.
  unfold write. destruct (truthy _); auto. rewrite nth_error_set_nth.
  destruct (Nat.eqb i j) eqn:E; auto. apply Nat.eqb_eq in E. subst j. exfalso. apply N; auto.
Qed.

Lemma maps_to_unique : forall nodes e i j, maps_to nodes e i -> maps_to nodes e j -> i = j.
Proof. intros nodes e i j H1 H2. apply first_close_iff in H1, H2. congruence. Qed.

Lemma maps_to_bound : forall nodes e i, maps_to nodes e i -> (i < length nodes)%nat.
Proof. intros nodes e i (z & H & _). apply nth_error_Some. congruence. Qed.

(** ** Loads *)

Lemma Qfloor_inject : forall z, Qfloor (inject_Z z) = z.
Proof. intros. unfold Qfloor, inject_Z. simpl. apply Z.div_1_r. Qed.

Lemma int_cast_whole : forall q z, q == inject_Z z -> int_cast q == q.
Proof.
  intros q z H. unfold int_cast. destruct (Qle_bool 0 q).
  - rewrite (Qfloor_comp _ _ H), Qfloor_inject. symmetry; auto.
  - rewrite (Qceiling_comp _ _ H). unfold Qceiling.
    assert (E : - inject_Z z == inject_Z (- z)) by reflexivity.
    rewrite (Qfloor_comp _ _ E), Qfloor_inject, Z.opp_involutive. symmetry; auto.
Qed.

Lemma global_forces_run : forall h nodes,
  global_forces nodes (run h []) = Ok (apply_bc int_cast nodes Force (run h []) (zeros nodes)).
Proof. intros. unfold global_forces. rewrite run_never_conflicts. reflexivity. Qed.

Lemma global_disp_run : forall h nodes,
  global_disp nodes (run h []) = Ok (apply_bc (fun q => q) nodes Displacement (run h []) (zeros nodes)).
Proof. intros. unfold global_disp. rewrite run_never_conflicts. reflexivity. Qed.

Lemma global_restrained_run : forall h nodes,
  global_restrained nodes (run h []) = Ok (apply_bc (fun _ => 1) nodes Fixation (run h []) (zeros nodes)).
Proof. intros. unfold global_restrained. rewrite run_never_conflicts. reflexivity. Qed.

(** The value held by the list for one place reaches the node, provided no other elevation of
    the list maps to this node. *)
Lemma history_last_sent : forall h nodes k e a i q,
  maps_to nodes e i -> last_given h k e a q -> ~ q == 0 ->
  (forall c, In c h -> call_kind c = k -> maps_to nodes (call_elev c) i -> call_elev c == e) ->
  last_sent nodes k (run h []) i a q.
Proof.
  intros h nodes k e a i q M G Z O.
  apply last_write_wins in G. destruct G as (b & Hb & (Kb & Eb) & V).
  apply in_split in Hb. destruct Hb as (l1 & l2 & E).
  assert (MB : maps_to nodes (bc_elev b) i).
  { destruct M as (z & H1 & H2 & H3). exists z. split; auto. rewrite Eb. split; auto.
    intros j y L Hy. rewrite Eb. eapply H3; eauto. }
  exists l1, b, l2. split; auto. split; [unfold sends; auto|].
  intros b' q' Hb' (K' & M' & V' & _).
  (* b' would be another boundary condition at the same place *)
  assert (P : exists c, In c h /\ call_kind c = bc_kind b' /\ call_elev c == bc_elev b').
  { assert (Hin : In b' (run h [])) by (rewrite E; apply in_or_app; right; right; auto).
    clear - Hin. revert Hin. induction h as [|c h IH] using rev_ind; [intros []|].
    rewrite run_snoc, exec_as_update. unfold update_bc. intros Hin.
    assert (X : (exists b0, In b0 (run h []) /\ bc_kind b0 = bc_kind b' /\ bc_elev b0 = bc_elev b') \/
                (call_kind c = bc_kind b' /\ call_elev c == bc_elev b')).
    { destruct (Nat.eqb _ 1).
      - left. clear IH. induction (run h []) as [|d t IHt]; [destruct Hin|].
        simpl in Hin. destruct Hin as [<-|Hin].
        + exists d. destruct (selects _ _ d); simpl; auto.
        + destruct (IHt Hin) as (b0 & ? & ?). exists b0; simpl; auto.
      - apply in_app_or in Hin. destruct Hin as [Hin|[<-|[]]]; [left; eauto|].
        right. simpl. split; [auto|reflexivity]. }
    destruct X as [(b0 & H0 & K0 & E0)|X].
    - assert (exists c0, In c0 h /\ call_kind c0 = bc_kind b0 /\ call_elev c0 == bc_elev b0).
      { clear - H0. revert b0 H0. induction h as [|c h IH] using rev_ind; [intros b0 []|].
        intros b0. rewrite run_snoc, exec_as_update. unfold update_bc. intros Hin.
        destruct (Nat.eqb _ 1).
        - assert (Y : exists b1, In b1 (run h []) /\ bc_kind b1 = bc_kind b0 /\ bc_elev b1 = bc_elev b0).
          { clear IH. induction (run h []) as [|d t IHt]; [destruct Hin|].
            simpl in Hin. destruct Hin as [<-|Hin].
            + exists d. destruct (selects _ _ d); simpl; auto.
            + destruct (IHt Hin) as (b1 & ? & ?). exists b1; simpl; auto. }
          destruct Y as (b1 & H1 & K1 & E1). destruct (IH b1 H1) as (c0 & ? & ? & ?).
          exists c0. rewrite <- K1, <- E1. split; [apply in_or_app; auto|auto].
        - apply in_app_or in Hin. destruct Hin as [Hin|[<-|[]]].
          + destruct (IH b0 Hin) as (c0 & ? & ?). exists c0. split; [apply in_or_app; auto|auto].
          + exists c. simpl. split; [apply in_or_app; right; left; auto|split; [auto|reflexivity]]. }
      destruct H as (c0 & ? & ? & ?). exists c0. rewrite <- K0, <- E0.
      split; [apply in_or_app; auto|auto].
    - exists c. split; [apply in_or_app; right; left; auto|auto]. }
  destruct P as (c & Hc & Kc & Ec).
  assert (Ee : bc_elev b' == e).
  { rewrite <- Ec. apply O; auto; [congruence|].
    destruct M' as (z & H1 & H2 & H3). exists z. split; auto. rewrite Ec. split; auto.
    intros j y L Hy. rewrite Ec. eapply H3; eauto. }
  pose proof (run_one_per_place h) as U.
  apply in_split in Hb'. destruct Hb' as (l3 & l4 & E'). subst l2.
  assert (length l1 = length (l1 ++ b :: l3)); [|rewrite app_length in H; simpl in H; lia].
  apply (U _ _ b b').
  - rewrite E, nth_error_app2, Nat.sub_diag by lia. reflexivity.
  - rewrite E. replace (l1 ++ b :: l3 ++ b' :: l4) with ((l1 ++ b :: l3) ++ b' :: l4)
      by (rewrite <- app_assoc; reflexivity).
    rewrite nth_error_app2, Nat.sub_diag by lia. reflexivity.
  - congruence.
  - rewrite Eb, Ee. reflexivity.
Qed.

Lemma load_kept : forall h nodes e a i q,
  maps_to nodes e i -> last_given h Force e a q -> ~ q == 0 -> (exists z, q == inject_Z z) ->
  (forall c, In c h -> call_kind c = Force -> maps_to nodes (call_elev c) i -> call_elev c == e) ->
  exists t v, global_forces nodes (run h []) = Ok t /\ nth_error (col a t) i = Some v /\ v == q.
Proof.
  intros h nodes e a i q M G Z [z W] O.
  eexists; exists (int_cast q). split; [apply global_forces_run|]. split.
  - apply apply_bc_sent; [eapply maps_to_bound; eauto|]. eapply history_last_sent; eauto.
  - eapply int_cast_whole; eauto.
Qed.

Lemma load_magnitude : forall q, Qabs (int_cast q) <= Qabs q /\ Qabs (q - int_cast q) < 1.
Proof.
  intros q. unfold int_cast. destruct (Qle_bool 0 q) eqn:E.
  - apply Qleb_true in E. pose proof (Qfloor_le q). pose proof (Qlt_floor q).
    rewrite inject_Z_plus in H0.
    assert (0 <= inject_Z (Qfloor q)).
    { change 0 with (inject_Z 0). rewrite <- Zle_Qle.
      apply (Qfloor_resp_le 0 q) in E. exact E. }
    rewrite !Qabs_pos by lra. change (inject_Z 1) with 1 in H0. lra.
  - apply Qleb_false in E. pose proof (Qle_ceiling q). pose proof (Qceiling_lt q).
    rewrite <- (Z.add_opp_r), inject_Z_plus in H0.
    assert (inject_Z (Qceiling q) <= 0).
    { change 0 with (inject_Z 0). rewrite <- Zle_Qle.
      apply Qlt_le_weak in E. apply Qceiling_resp_le in E. exact E. }
    change (inject_Z (-(1))) with (-1) in H0.
    rewrite !Qabs_neg by lra. lra.
Qed.

(** ** Prescribed displacements *)

Lemma support_col_nth : forall r d i x y,
  nth_error r i = Some x -> nth_error d i = Some y ->
  nth_error (support_col r d) i = Some (negb (Qeq_bool x 0) || negb (Qeq_bool y 0)).
Proof.
  unfold support_col. induction r as [|r0 r IH]; intros [|d0 d] [|i] x y Hr Hd; simpl in *; try discriminate.
  - inversion Hr; inversion Hd; subst; reflexivity.
  - apply IH; auto.
Qed.

Lemma disp_enforced : forall h nodes e a i q,
  maps_to nodes e i -> last_given h Displacement e a q -> ~ q == 0 ->
  (forall c, In c h -> call_kind c = Displacement -> maps_to nodes (call_elev c) i -> call_elev c == e) ->
  exists td tr, global_disp nodes (run h []) = Ok td /\ global_restrained nodes (run h []) = Ok tr /\
    nth_error (col a td) i = Some q /\
    nth_error (support_col (col a tr) (col a td)) i = Some true.
Proof.
  intros h nodes e a i q M G Z O.
  eexists; eexists. split; [apply global_disp_run|]. split; [apply global_restrained_run|].
  pose proof (maps_to_bound _ _ _ M) as L.
  assert (V : nth_error (col a (apply_bc (fun q => q) nodes Displacement (run h []) (zeros nodes))) i = Some q).
  { apply (apply_bc_sent (fun q => q)); auto. eapply history_last_sent; eauto. }
  split; [exact V|].
  destruct (nth_error (col a (apply_bc (fun _ => 1) nodes Fixation (run h []) (zeros nodes))) i) as [x|] eqn:R.
  - rewrite (support_col_nth _ _ _ _ _ R V). f_equal. apply Qeqb_false in Z. rewrite Z. apply orb_true_r.
  - apply nth_error_None in R. rewrite apply_bc_col_length, zeros_col, map_length in R. lia.
Qed.

Lemma support_enforced : forall h nodes e a i q,
  maps_to nodes e i -> last_given h Fixation e a q -> ~ q == 0 ->
  (forall c, In c h -> call_kind c = Fixation -> maps_to nodes (call_elev c) i -> call_elev c == e) ->
  exists td tr, global_disp nodes (run h []) = Ok td /\ global_restrained nodes (run h []) = Ok tr /\
    nth_error (support_col (col a tr) (col a td)) i = Some true.
Proof.
  intros h nodes e a i q M G Z O.
  eexists; eexists. split; [apply global_disp_run|]. split; [apply global_restrained_run|].
  pose proof (maps_to_bound _ _ _ M) as L.
  assert (V : nth_error (col a (apply_bc (fun _ => 1) nodes Fixation (run h []) (zeros nodes))) i = Some 1).
  { apply (apply_bc_sent (fun _ => 1) nodes Fixation (run h []) a i q); auto. eapply history_last_sent; eauto. }
  destruct (nth_error (col a (apply_bc (fun q => q) nodes Displacement (run h []) (zeros nodes))) i) as [x|] eqn:R.
  - rewrite (support_col_nth _ _ _ _ _ V R). reflexivity.
  - apply nth_error_None in R. rewrite apply_bc_col_length, zeros_col, map_length in R. lia.
Qed.

(** ** Heap *)


Lemma deref_cons : forall h a m b, nth_error h a = Some b -> deref h (a :: m) = b :: deref h m.
Proof. intros. unfold deref. simpl. rewrite H. reflexivity. Qed.

Lemma deref_app : forall h m1 m2, deref h (m1 ++ m2) = deref h m1 ++ deref h m2.
Proof.
  intros h m1 m2. induction m1 as [|a m IH]; auto. simpl. rewrite IH.
  destruct (nth_error h a); reflexivity.
Qed.

Lemma deref_grow : forall h b m, valid h m -> deref (h ++ [b]) m = deref h m.
Proof.
  intros h b m V. induction m as [|a m IH]; auto. simpl.
  rewrite nth_error_app1 by (apply V; left; auto). rewrite IH; auto.
  intros x Hx. apply V; right; auto.
Qed.

Lemma deref_set_other : forall h a b m, ~ In a m -> deref (set_nth a b h) m = deref h m.
Proof.
  intros h a b m N. induction m as [|c m IH]; auto. simpl.
  rewrite nth_error_set_nth. destruct (Nat.eqb a c) eqn:E.
  - apply Nat.eqb_eq in E; subst. exfalso; apply N; left; auto.
  - rewrite IH; auto. intros H; apply N; right; auto.
Qed.

Lemma filter_deref : forall h k e m,
  filter (selects k e) (deref h m) = deref h (filter (selects_at h k e) m).
Proof.
  intros h k e m. induction m as [|a m IH]; auto. simpl. unfold selects_at at 1.
  destruct (nth_error h a) as [b|] eqn:E; auto.
  simpl. destruct (selects k e b); auto. rewrite (deref_cons _ _ _ b); auto. rewrite IH; auto.
Qed.

Lemma deref_length_valid : forall h m, valid h m -> length (deref h m) = length m.
Proof.
  intros h m V. induction m as [|a m IH]; auto. simpl.
  destruct (nth_error h a) eqn:E.
  - simpl. rewrite IH; auto. intros x Hx; apply V; right; auto.
  - apply nth_error_None in E. specialize (V a (or_introl eq_refl)). lia.
Qed.

Lemma deref_update_one : forall h k e f m a b,
  nth_error h a = Some b -> selects k e b = true ->
  (forall c, In c m -> selects_at h k e c = true -> c = a) ->
  (forall d, selects k e d = true -> selects k e (f d) = true) ->
  deref (set_nth a (f b) h) m = update_selected k e f (deref h m).
Proof.
  intros h k e f m a b Ha S O P. induction m as [|c m IH]; auto. simpl.
  rewrite nth_error_set_nth.
  assert (L : (a < length h)%nat) by (apply nth_error_Some; congruence).
  apply Nat.ltb_lt in L. rewrite L.
  destruct (Nat.eqb a c) eqn:E.
  - apply Nat.eqb_eq in E; subst c. rewrite Ha. simpl. rewrite S. rewrite IH; auto.
    intros c Hc. apply O; right; auto.
  - apply Nat.eqb_neq in E. destruct (nth_error h c) as [d|] eqn:D.
    + simpl. destruct (selects k e d) eqn:Sd.
      * exfalso. apply E. symmetry. apply O; [left; auto|]. unfold selects_at. rewrite D; auto.
      * rewrite IH; auto. intros x Hx. apply O; right; auto.
    + apply IH. intros x Hx. apply O; right; auto.
Qed.

Lemma update_heap_refines : forall h m e x y z k, valid h m ->
  let '(h', m') := update_bc_heap h m e x y z k in
  deref h' m' = update_bc (deref h m) e x y z k /\ valid h' m' /\
  (forall m2, valid h m2 -> (forall a, In a m -> ~ In a m2) ->
     deref h' m2 = deref h m2 /\ valid h' m2 /\ (forall a, In a m' -> ~ In a m2)).
Proof.
  intros h m e x y z k V. unfold update_bc_heap, update_bc.
  rewrite filter_deref.
  assert (VF : valid h (filter (selects_at h k e) m)).
  { intros a Ha. apply filter_In in Ha. apply V, Ha. }
  rewrite (deref_length_valid _ _ VF).
  assert (GROW : deref (h ++ [mkBC k e x y z]) (m ++ [length h]) = deref h m ++ [mkBC k e x y z] /\
          valid (h ++ [mkBC k e x y z]) (m ++ [length h]) /\
          (forall m2, valid h m2 -> (forall a, In a m -> ~ In a m2) ->
             deref (h ++ [mkBC k e x y z]) m2 = deref h m2 /\ valid (h ++ [mkBC k e x y z]) m2 /\
             (forall a, In a (m ++ [length h]) -> ~ In a m2))).
  { split; [|split].
    - rewrite deref_app, deref_grow by auto. f_equal.
      rewrite (deref_cons _ _ _ (mkBC k e x y z)); auto.
      rewrite nth_error_app2, Nat.sub_diag by lia. reflexivity.
    - intros a Ha. rewrite app_length; simpl. apply in_app_or in Ha.
      destruct Ha as [Ha|[<-|[]]]; [specialize (V a Ha); lia|lia].
    - intros m2 V2 D. split; [apply deref_grow; auto|]. split.
      + intros a Ha. rewrite app_length. specialize (V2 a Ha). lia.
      + intros a Ha H2. apply in_app_or in Ha. destruct Ha as [Ha|[<-|[]]]; [eapply D; eauto|].
        specialize (V2 _ H2). lia. }
  destruct (filter (selects_at h k e) m) as [|a [|a' t]] eqn:F; simpl; try exact GROW.
  clear GROW.
  assert (Ha : In a m /\ selects_at h k e a = true) by (apply filter_In; rewrite F; left; auto).
  destruct Ha as [Ha Sa]. unfold selects_at in Sa. destruct (nth_error h a) as [b|] eqn:B; [|discriminate].
  split; [|split].
  - apply (deref_update_one h k e (merge_bc x y z)); auto.
    intros c Hc Sc. assert (In c (filter (selects_at h k e) m)) by (apply filter_In; auto).
    rewrite F in H. destruct H as [H|[]]; auto.
  - intros c Hc. rewrite set_nth_length. auto.
  - intros m2 V2 D. split; [apply deref_set_other; apply D; auto|]. split; auto.
    intros c Hc. rewrite set_nth_length. auto.
Qed.

Lemma exec_heap_refines : forall h m c, valid h m ->
  let '(h', m') := exec_heap h m c in
  deref h' m' = exec (deref h m) c /\ valid h' m' /\
  (forall m2, valid h m2 -> (forall a, In a m -> ~ In a m2) ->
     deref h' m2 = deref h m2 /\ valid h' m2 /\ (forall a, In a m' -> ~ In a m2)).
Proof. intros h m [] V; simpl; apply update_heap_refines; auto. Qed.


Lemma isolation : forall ops h m1 m2, valid h m1 -> valid h m2 ->
  (forall a, In a m1 -> ~ In a m2) ->
  let '(h', m1', m2') := run2 ops (h, m1, m2) in
  deref h' m1' = run (calls_of true ops) (deref h m1) /\
  deref h' m2' = run (calls_of false ops) (deref h m2).
Proof.
  induction ops as [|[w c] ops IH]; intros h m1 m2 V1 V2 D.
  - simpl. auto.
  - change (run2 ((w, c) :: ops) (h, m1, m2)) with (run2 ops (exec2 (h, m1, m2) (w, c))).
    destruct w; cbn [exec2].
    + pose proof (exec_heap_refines h m1 c V1) as R.
      destruct (exec_heap h m1 c) as [h' m1'] eqn:E. destruct R as (R1 & R2 & R3).
      destruct (R3 m2 V2 D) as (R4 & R5 & R6).
      specialize (IH h' m1' m2 R2 R5 R6).
      destruct (run2 ops (h', m1', m2)) as [[hh mm1] mm2].
      destruct IH as [I1 I2]. split.
      * rewrite I1, R1. reflexivity.
      * rewrite I2, R4. reflexivity.
    + pose proof (exec_heap_refines h m2 c V2) as R.
      destruct (exec_heap h m2 c) as [h' m2'] eqn:E. destruct R as (R1 & R2 & R3).
      assert (D' : forall a, In a m2 -> ~ In a m1) by (intros a H2 H1; eapply D; eauto).
      destruct (R3 m1 V1 D') as (R4 & R5 & R6).
      assert (D2 : forall a, In a m1 -> ~ In a m2') by (intros a H1 H2; eapply R6; eauto).
      specialize (IH h' m1 m2' R5 R2 D2).
      destruct (run2 ops (h', m1, m2')) as [[hh mm1] mm2].
      destruct IH as [I1 I2]. split.
      * rewrite I1, R4. reflexivity.
      * rewrite I2, R1. reflexivity.
Qed.

(** ** Frame, converse and growth *)

Lemma update_selected_nth_inv : forall k e x y z l i b,
  nth_error (update_selected k e (merge_bc x y z) l) i = Some b -> selects k e b = false ->
  nth_error l i = Some b.
Proof.
  induction l as [|a t IH]; intros [|i] b H S; simpl in *; try discriminate.
  - inversion H; subst b. destruct (selects k e a) eqn:A; auto. rewrite selects_merge in S. congruence.
  - apply IH; auto.
Qed.

Lemma exec_frame_inv : forall l c i b, nth_error (exec l c) i = Some b ->
  ~ at_place (call_kind c) (call_elev c) b -> nth_error l i = Some b.
Proof.
  intros l c i b H N. rewrite exec_as_update in H. unfold update_bc in H.
  assert (S : selects (call_kind c) (call_elev c) b = false).
  { destruct (selects (call_kind c) (call_elev c) b) eqn:S; auto. apply selects_iff in S. tauto. }
  destruct (Nat.eqb _ 1).
  - eapply update_selected_nth_inv; eauto.
  - destruct (Nat.lt_ge_cases i (length l)) as [L|L].
    + rewrite nth_error_app1 in H; auto.
    + rewrite nth_error_app2 in H by lia. destruct (i - length l)%nat as [|n] eqn:D; simpl in H.
      * inversion H; subst b. exfalso. apply N. split; [auto|reflexivity].
      * destruct n; discriminate.
Qed.

(** ** Last write wins from any unambiguous starting list *)

Lemma one_per_place_Uniq : forall l, one_per_place l -> Uniq l.
Proof.
  intros l O k e.
  assert (X : forall l, one_per_place l -> (length (filter (selects k e) l) <= 1)%nat); auto.
  clear. induction l as [|b t IH]; simpl; intros O; [lia|].
  assert (Ot : one_per_place t).
  { intros i j x y Hi Hj K E. specialize (O (S i) (S j) x y Hi Hj K E). lia. }
  specialize (IH Ot). destruct (selects k e b) eqn:Sb; simpl; [|lia].
  destruct (filter (selects k e) t) as [|c r] eqn:F; simpl; [lia|].
  assert (Hc : In c (filter (selects k e) t)) by (rewrite F; left; auto).
  apply filter_In in Hc. destruct Hc as [Hc Sc]. apply In_nth_error in Hc. destruct Hc as [j Hj].
  apply selects_iff in Sb, Sc. destruct Sb as [Kb Eb], Sc as [Kc Ec].
  specialize (O 0%nat (S j) b c eq_refl Hj). exfalso.
  assert (0%nat = S j); [|lia]. apply O; [congruence|]. rewrite Eb, Ec. reflexivity.
Qed.

Definition spec_val (h : list call) (l0 : list bc) k e a : option Q :=
  fold_left (fun acc c => if kind_eqb (call_kind c) k && Qeq_bool (call_elev c) e
                          then merge_val (call_val a c) acc else acc) h (lookup l0 k e a).

Lemma lookup_run : forall h l0 k e a, Uniq l0 -> lookup (run h l0) k e a = spec_val h l0 k e a.
Proof.
  intros h l0 k e a U. unfold spec_val. induction h as [|c h IH] using rev_ind; auto.
  rewrite run_snoc, exec_as_update, fold_left_app, <- IH. simpl.
  assert (UR : Uniq (run h l0)) by (apply Uniq_run; auto).
  destruct (place_dec (call_kind c) (call_elev c) k e) as [[Pk Pe]|N].
  - rewrite <- (lookup_ext _ _ (call_elev c)) by auto. subst k.
    rewrite lookup_update_same, ax_arg_call by auto.
    rewrite kind_eqb_refl. apply Qeqb_true in Pe. rewrite Pe. simpl.
    apply Qeqb_true in Pe. rewrite (lookup_ext _ _ (call_elev c) e) by auto. reflexivity.
  - rewrite lookup_update_other by auto.
    destruct (kind_eqb (call_kind c) k) eqn:K; auto. destruct (Qeq_bool (call_elev c) e) eqn:E; auto.
    exfalso. apply N. apply kind_eqb_eq in K. apply Qeqb_true in E. auto.
Qed.

Lemma spec_val_iff : forall h l0 k e a q,
  spec_val h l0 k e a = Some q <->
  last_given h k e a q \/
  ((forall c q', In c h -> ~ gives k e a c q') /\ lookup l0 k e a = Some q).
Proof.
  intros h l0 k e a. unfold spec_val. induction h as [|c h IH] using rev_ind; intros q.
  - simpl. split.
    + intros H. right. split; auto.
    + intros [(h1 & c & h2 & E & _)|[_ H]]; auto. destruct h1; discriminate.
  - rewrite fold_left_app. simpl.
    assert (D : (exists v, gives k e a c v) \/ (forall v, ~ gives k e a c v)).
    { unfold gives. destruct (place_dec (call_kind c) (call_elev c) k e) as [[A B]|N].
      - destruct (call_val a c) as [v|] eqn:V; [left; eauto|right; intros v (_ & _ & C); congruence].
      - right; intros v (A & B & _); tauto. }
    destruct D as [[v (G1 & G2 & G3)]|N].
    + pose proof G1 as G1'. apply kind_eqb_eq in G1'. rewrite G1'.
      pose proof G2 as G2'. apply Qeqb_true in G2'. rewrite G2'. rewrite G3. simpl.
      split.
      * intros H; inversion H; subst v. left. exists h, c, []. split; [reflexivity|].
        split; [unfold gives; auto|]. intros c' q' [].
      * intros [(h1 & c1 & h2 & E & G & L)|[C _]].
        -- destruct h2 as [|y h2 _] using rev_ind.
           ++ apply app_inj_tail in E. destruct E as [_ <-]. destruct G as (_ & _ & G). congruence.
           ++ exfalso. rewrite app_comm_cons, app_assoc in E. apply app_inj_tail in E.
              destruct E as [_ <-]. apply (L c v); [apply in_or_app; right; left; auto|].
              unfold gives; auto.
        -- exfalso. apply (C c v); [apply in_or_app; right; left; auto|]. unfold gives; auto.
    + set (acc := fold_left _ h _) in *.
      assert (R : (if kind_eqb (call_kind c) k && Qeq_bool (call_elev c) e
                   then merge_val (call_val a c) acc else acc) = acc).
      { destruct (kind_eqb (call_kind c) k) eqn:K; auto. destruct (Qeq_bool (call_elev c) e) eqn:E; auto.
        simpl. destruct (call_val a c) as [v|] eqn:V; auto.
        exfalso. apply (N v). apply kind_eqb_eq in K. apply Qeqb_true in E. unfold gives; auto. }
      rewrite R, IH. split.
      * intros [(h1 & c1 & h2 & E & G & L)|[C V]].
        -- left. subst h. exists h1, c1, (h2 ++ [c]). split; [rewrite <- app_assoc; reflexivity|].
           split; auto. intros c' q' Hin. apply in_app_or in Hin. destruct Hin as [Hin|[<-|[]]]; eauto.
        -- right. split; auto. intros c' q' Hin. apply in_app_or in Hin. destruct Hin as [Hin|[<-|[]]]; eauto.
      * intros [(h1 & c1 & h2 & E & G & L)|[C V]].
        -- left. destruct h2 as [|y h2 _] using rev_ind.
           ++ apply app_inj_tail in E. destruct E as [_ <-]. exfalso. apply (N q); auto.
           ++ rewrite app_comm_cons, app_assoc in E. apply app_inj_tail in E. destruct E as [-> <-].
              exists h1, c1, h2. split; auto. split; auto.
              intros c' q' Hin. apply L. apply in_or_app; auto.
        -- right. split; auto. intros c' q' Hin. apply C. apply in_or_app; auto.
Qed.

Lemma last_write_wins_from : forall h l0 k e a q, one_per_place l0 ->
  (holds (run h l0) k e a q <->
   last_given h k e a q \/
   ((forall c q', In c h -> ~ gives k e a c q') /\ holds l0 k e a q)).
Proof.
  intros h l0 k e a q O. apply one_per_place_Uniq in O.
  rewrite !holds_lookup by (auto using Uniq_run). rewrite lookup_run by auto. apply spec_val_iff.
Qed.

Lemma run_valid_from : forall h l0 k, one_per_place l0 ->
  one_per_place (run h l0) /\ validate_bc (run h l0) k = Ok tt.
Proof.
  intros h l0 k O.
  assert (P : one_per_place (run h l0))
    by (apply Uniq_one_per_place, Uniq_run, one_per_place_Uniq; auto).
  split; auto. destruct (validate_bc_ok_or (run h l0) k) as [|E]; auto.
  apply validate_bc_iff in E. exfalso. revert E. apply one_per_place_no_conflict; auto.
Qed.

Lemma validate_bc_ok_iff : forall l k, validate_bc l k = Ok tt <-> ~ conflict l k.
Proof.
  intros l k. rewrite <- validate_bc_iff.
  destruct (validate_bc_ok_or l k) as [E|E]; rewrite E; split; congruence.
Qed.

Lemma zero_displacement_free : forall nodes e i a, maps_to nodes e i ->
  exists td tr, global_disp nodes (run [SetPointdisplacement e (Some 0) (Some 0) (Some 0)] []) = Ok td /\
    global_restrained nodes (run [SetPointdisplacement e (Some 0) (Some 0) (Some 0)] []) = Ok tr /\
    nth_error (support_col (col a tr) (col a td)) i = Some false.
Proof.
  intros nodes e i a M. pose proof (maps_to_bound _ _ _ M) as L.
  eexists; eexists. split; [apply global_disp_run|]. split; [apply global_restrained_run|].
  rewrite (support_col_nth _ _ _ 0 0); [reflexivity| |]; apply apply_bc_not_sent; auto;
    intros b q [<-|[]] (K & _ & V & Z); simpl in *; try discriminate.
  destruct a; simpl in V; inversion V; subst; apply Z; reflexivity.
Qed.

Lemma load_truncated :
  exists h nodes e a i q t v,
    last_given h Force e a q /\ maps_to nodes e i /\
    global_forces nodes (run h []) = Ok t /\ nth_error (col a t) i = Some v /\ ~ v == q.
Proof.
  exists [SetPointload 0 (Some 0.5) None None], [0; -5], 0, AY, 0%nat, 0.5,
    (mkTable [0; 0] [0; 0] [0; 0]), 0.
  split; [|split; [|split; [|split]]].
  - exists [], (SetPointload 0 (Some 0.5) None None), [].
    split; [reflexivity|]. split; [repeat split; reflexivity|]. intros c q [].
  - apply first_close_iff. reflexivity.
  - reflexivity.
  - reflexivity.
  - intros C. apply Qeq_eq_bool in C. discriminate.
Qed.

Lemma shared_object_leaks :
  exists h m1 m2 c, valid h m1 /\ valid h m2 /\
    let '(h', _, m2') := run2 [(true, c)] (h, m1, m2) in deref h' m2' <> deref h m2.
Proof.
  exists [mkBC Force 0 None (Some 1) None], [0%nat], [0%nat], (SetPointload 0 (Some 5) None None).
  split; [|split].
  - intros a [<-|[]]; repeat constructor.
  - intros a [<-|[]]; repeat constructor.
  - intros C. discriminate.
Qed.
