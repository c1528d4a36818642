From Coq Require Import List Bool Arith ZArith QArith Qabs Qminmax Lia Lqa Permutation Sorted.
From Verif Require Import Base PileModel PileSpec.
Import ListNotations.
Local Open Scope Q_scope.

(** ** Sorting *)
Section Sorting.
  Context {A : Type} (key : A -> Q).
  Definition kle (a b : A) : Prop := key a <= key b.

  Lemma insert_perm : forall x l, Permutation (x :: l) (insert_by key x l).
  Proof.
    intros x l; induction l as [|h t IH]; simpl; auto.
    destruct (Qle_bool (key x) (key h)); auto.
    rewrite perm_swap. constructor. exact IH.
  Qed.

  Lemma sort_perm : forall l, Permutation l (sort_by key l).
  Proof.
    induction l as [|h t IH]; simpl; auto.
    rewrite <- insert_perm. constructor. exact IH.
  Qed.

  Lemma insert_sorted : forall x l, StronglySorted kle l -> StronglySorted kle (insert_by key x l).
  Proof.
    intros x l S; induction S as [|h t S IH F]; simpl.
    - repeat constructor.
    - destruct (Qle_bool (key x) (key h)) eqn:E.
      + apply Qleb_true in E. constructor; [constructor; auto|]. constructor; auto.
        rewrite Forall_forall in *. intros y Hy. unfold kle in *. specialize (F y Hy). lra.
      + apply Qleb_false in E. constructor; auto.
        rewrite Forall_forall in *. intros y Hy.
        apply (Permutation_in _ (Permutation_sym (insert_perm x t))) in Hy.
        destruct Hy as [<-|Hy]; auto. unfold kle. lra.
  Qed.

  Lemma sort_sorted : forall l, StronglySorted kle (sort_by key l).
  Proof. induction l; simpl; [constructor|]. apply insert_sorted; auto. Qed.

  Lemma sort_id : forall l, StronglySorted kle l -> sort_by key l = l.
  Proof.
    intros l S. induction S as [|h t S IH F]; auto. simpl. rewrite IH.
    destruct t as [|h' t]; auto. simpl. inversion F; subst.
    apply Qleb_true in H1. unfold kle in *. rewrite H1. reflexivity.
  Qed.

  (** strictly sorted lists are determined by their elements *)
  Lemma strict_sorted_unique : forall l l',
    StronglySorted (fun a b => key a < key b) l -> StronglySorted kle l' ->
    Permutation l l' -> l = l'.
  Proof.
    induction l as [|h t IH]; intros l' S S' P.
    - apply Permutation_nil in P. auto.
    - destruct l' as [|h' t']; [apply Permutation_sym, Permutation_nil in P; discriminate|].
      inversion S as [|? ? St Ft]; subst. inversion S' as [|? ? St' Ft']; subst.
      assert (E : h = h').
      { assert (H1 : In h' (h :: t)) by (eapply Permutation_in; [apply Permutation_sym; exact P|left; auto]).
        assert (H2 : In h (h' :: t')) by (eapply Permutation_in; [exact P|left; auto]).
        destruct H1 as [|H1]; auto. destruct H2 as [|H2]; auto.
        rewrite Forall_forall in Ft, Ft'. specialize (Ft _ H1). specialize (Ft' _ H2).
        unfold kle in Ft'. lra. }
      subst h'. f_equal. apply IH; auto. eapply Permutation_cons_inv; eauto.
  Qed.
End Sorting.

(** ** Piles *)

Lemma connected_cons : forall s s' t,
  connected (s :: s' :: t) = true <-> s_top s' == s_bottom s /\ connected (s' :: t) = true.
Proof. intros. simpl connected at 1. rewrite andb_true_iff, Qeqb_true. reflexivity. Qed.

(** In a connected list of proper sections everything after the head is at or below its bottom. *)
Lemma connected_below : forall t s, proper (s :: t) -> connected (s :: t) = true ->
  forall x, In x t -> s_top x <= s_bottom s.
Proof.
  induction t as [|s' t IH]; intros s P C x Hx; [destruct Hx|].
  apply connected_cons in C. destruct C as [E C]. destruct Hx as [<-|Hx]; [lra|].
  assert (P' : proper (s' :: t)) by (intros y Hy; apply P; right; auto).
  specialize (IH s' P' C x Hx). specialize (P s' (or_intror (or_introl eq_refl))). lra.
Qed.

Lemma connected_strict : forall l, proper l -> connected l = true ->
  StronglySorted (fun a b => - s_top a < - s_top b) l.
Proof.
  induction l as [|s t IH]; intros P C; constructor.
  - apply IH; [intros y Hy; apply P; right; auto|].
    destruct t; auto. apply connected_cons in C. apply C.
  - apply Forall_forall. intros x Hx. pose proof (connected_below t s P C x Hx).
    specialize (P s (or_introl eq_refl)). lra.
Qed.

Lemma proper_perm : forall l l', Permutation l l' -> proper l -> proper l'.
Proof. intros l l' P H s Hs. apply H. eapply Permutation_in; [apply Permutation_sym|]; eauto. Qed.

Lemma make_pile_ok : forall l p, make_pile l = Ok p <->
  l <> [] /\ p = sort_by (fun x => - s_top x) l /\ connected p = true.
Proof.
  intros l p. unfold make_pile. destruct l as [|s t]; simpl.
  - split; [discriminate|]. intros [C _]; congruence.
  - set (q := insert_by _ s _). destruct (connected q) eqn:E; split.
    + intros H; inversion H; subst. repeat split; auto; discriminate.
    + intros (_ & -> & _). reflexivity.
    + discriminate.
    + intros (_ & -> & C). congruence.
Qed.

Lemma make_pile_err : forall l e, make_pile l = Err e -> e = ValueError.
Proof.
  intros l e. unfold make_pile. destruct (Nat.eqb _ 0); [congruence|].
  simpl. destruct (connected _); congruence.
Qed.

Lemma make_pile_perm : forall l l' p, proper l -> Permutation l l' ->
  make_pile l = Ok p -> make_pile l' = Ok p.
Proof.
  intros l l' p P H M. apply make_pile_ok in M. destruct M as (N & E & C).
  apply make_pile_ok. split; [|split; auto].
  - intros ->. apply Permutation_sym, Permutation_nil in H. auto.
  - set (k := fun x => - s_top x) in *. apply (strict_sorted_unique k).
    + apply connected_strict; auto. eapply proper_perm; [|exact P]. subst p. apply sort_perm.
    + apply sort_sorted.
    + subst p. rewrite <- (sort_perm k l), <- (sort_perm k l'). auto.
Qed.

Lemma make_pile_order : forall l l', proper l -> Permutation l l' -> make_pile l = make_pile l'.
Proof.
  intros l l' P H.
  destruct (make_pile l) as [p|e] eqn:E.
  - symmetry. eapply make_pile_perm; eauto.
  - destruct (make_pile l') as [p|e'] eqn:E'.
    + apply (make_pile_perm l' l) in E'; [congruence| |apply Permutation_sym; auto].
      eapply proper_perm; eauto.
    + apply make_pile_err in E, E'. congruence.
Qed.

(** tiling *)
Lemma occ_iff : forall s z, Qltb (s_bottom s) z && Qle_bool z (s_top s) = true <-> occupies s z.
Proof. intros. rewrite andb_true_iff, Qltb_true, Qleb_true. reflexivity. Qed.

Lemma occupied_perm : forall l l' z, Permutation l l' -> occupied l z = occupied l' z.
Proof.
  intros l l' z P. unfold occupied. induction P; simpl; auto.
  - destruct (_ && _); simpl; auto.
  - destruct (Qltb (s_bottom x) z && _), (Qltb (s_bottom y) z && _); auto.
  - congruence.
Qed.

Lemma occupied_cons : forall s l z,
  (occupies s z -> occupied (s :: l) z = S (occupied l z)) /\
  (~ occupies s z -> occupied (s :: l) z = occupied l z).
Proof.
  intros s l z. unfold occupied. simpl.
  destruct (Qltb (s_bottom s) z && Qle_bool z (s_top s)) eqn:E.
  - apply occ_iff in E. simpl. tauto.
  - split; auto. intros C. apply occ_iff in C. congruence.
Qed.

Lemma occupied_zero : forall l z, (forall s, In s l -> ~ occupies s z) -> occupied l z = 0%nat.
Proof.
  induction l as [|s t IH]; intros z H; auto.
  destruct (occupied_cons s t z) as [_ E]. rewrite E by (apply H; left; auto).
  apply IH. intros; apply H; right; auto.
Qed.

Lemma occupied_pos : forall l z s, In s l -> occupies s z -> (1 <= occupied l z)%nat.
Proof.
  induction l as [|h t IH]; intros z s Hs O; [destruct Hs|].
  destruct (occupied_cons h t z) as [E1 E2]. destruct Hs as [->|Hs].
  - rewrite E1; auto; lia.
  - specialize (IH z s Hs O). unfold occupied in *. simpl. destruct (_ && _); simpl; lia.
Qed.

Lemma last_section_cons : forall s s' t, last_section (s :: s' :: t) = last_section (s' :: t).
Proof.
  intros. unfold last_section. simpl. rewrite <- app_assoc. simpl.
  destruct (rev t); reflexivity.
Qed.

Lemma connected_tiles : forall t s, proper (s :: t) -> connected (s :: t) = true ->
  exists b, pile_bottom (s :: t) = Ok b /\ b < s_top s /\ tiles_interval (s :: t) (s_top s) b.
Proof.
  induction t as [|s' t IH]; intros s P C.
  - exists (s_bottom s). split; [reflexivity|]. split; [apply P; left; auto|].
    intros z. destruct (occupied_cons s [] z) as [E1 E2]. split; intros H.
    + rewrite E1; auto.
    + rewrite E2; auto.
  - assert (P' : proper (s' :: t)) by (intros y Hy; apply P; right; auto).
    pose proof (connected_below _ _ P C) as B.
    apply connected_cons in C. destruct C as [E C].
    destruct (IH s' P' C) as (b & Hb & L & T).
    exists b. split; [|split].
    + unfold pile_bottom in *. rewrite last_section_cons. exact Hb.
    + specialize (P s (or_introl eq_refl)). lra.
    + intros z. destruct (occupied_cons s (s' :: t) z) as [E1 E2].
      destruct (T z) as [T1 T2]. specialize (P s (or_introl eq_refl)).
      split; intros H.
      * destruct (Qlt_le_dec (s_bottom s) z) as [Z|Z].
        -- rewrite E1 by (unfold occupies; lra). f_equal. apply T2. lra.
        -- rewrite E2 by (unfold occupies; lra). apply T1. lra.
      * rewrite E2 by (unfold occupies; lra). apply T2. lra.
Qed.

(** Any tiling of an interval, listed from the top, is connected. *)
Lemma tiles_connected : forall l t b, proper l ->
  StronglySorted (kle (fun x => - s_top x)) l ->
  tiles_interval l t b -> connected l = true.
Proof.
  induction l as [|s l IH]; intros t b P SS T; auto.
  destruct l as [|s' l]; auto.
  inversion SS as [|? ? S' F]; subst.
  assert (Ps : s_bottom s < s_top s) by (apply P; left; auto).
  assert (Ps' : s_bottom s' < s_top s') by (apply P; right; left; auto).
  assert (P' : proper (s' :: l)) by (intros y Hy; apply P; right; auto).
  assert (Fs : forall x, In x (s' :: l) -> s_top x <= s_top s).
  { intros x Hx. rewrite Forall_forall in F. specialize (F x Hx). unfold kle in F. lra. }
  assert (Fs' : forall x, In x (s' :: l) -> s_top x <= s_top s').
  { intros x Hx. destruct Hx as [<-|Hx]; [lra|]. inversion S' as [|? ? _ F']; subst.
    rewrite Forall_forall in F'. specialize (F' x Hx). unfold kle in F'. lra. }
  assert (INT : forall z, (1 <= occupied (s :: s' :: l) z)%nat -> b < z /\ z <= t).
  { intros z O. destruct (T z) as [_ T2].
    destruct (Qlt_le_dec b z) as [X|X]; [destruct (Qlt_le_dec t z) as [Y|Y]|]; auto;
      exfalso; rewrite T2 in O; lra || lia. }
  assert (TOP : b < s_top s /\ s_top s <= t).
  { apply INT. eapply occupied_pos; [left; reflexivity|]. unfold occupies; lra. }
  assert (TOP' : b < s_top s' /\ s_top s' <= t).
  { apply INT. eapply occupied_pos; [right; left; reflexivity|]. unfold occupies; lra. }
  assert (E : s_top s' == s_bottom s).
  { destruct (Qlt_le_dec (s_top s') (s_bottom s)) as [L|L].
    - (* gap: nothing occupies bottom of s *)
      exfalso. destruct (T (s_bottom s)) as [T1 _].
      rewrite occupied_zero in T1; [assert (0%nat = 1%nat) by (apply T1; lra); lia|].
      intros x [<-|Hx]; unfold occupies; [lra|]. specialize (Fs' x Hx). lra.
    - destruct (Qlt_le_dec (s_bottom s) (s_top s')) as [G|G]; [|lra].
      exfalso. destruct (T (s_top s')) as [T1 _].
      specialize (Fs s' (or_introl eq_refl)).
      destruct (occupied_cons s (s' :: l) (s_top s')) as [E1 _].
      rewrite E1 in T1 by (unfold occupies; lra).
      destruct (occupied_cons s' l (s_top s')) as [E2 _].
      rewrite E2 in T1 by (unfold occupies; lra).
      assert (S (S (occupied l (s_top s'))) = 1%nat) by (apply T1; lra). lia. }
  apply connected_cons. split; auto.
  apply (IH (s_bottom s) b P' S').
  intros z. destruct (T z) as [T1 T2]. destruct (occupied_cons s (s' :: l) z) as [E1 E2].
  split; intros H.
  - rewrite <- E2 by (unfold occupies; lra). apply T1. lra.
  - destruct (Qlt_le_dec (s_bottom s) z) as [Z|Z].
    + destruct (Qlt_le_dec (s_top s) z) as [Z'|Z'].
      * apply occupied_zero. intros x Hx. specialize (Fs x Hx). unfold occupies; lra.
      * rewrite E1 in T1 by (unfold occupies; lra). assert (S (occupied (s' :: l) z) = 1%nat) by (apply T1; lra). lia.
    + rewrite <- E2 by (unfold occupies; lra). apply T2. lra.
Qed.

Lemma pile_accepted_iff : forall l, proper l ->
  ((exists p, make_pile l = Ok p) <-> l <> [] /\ exists t b, tiles_interval l t b).
Proof.
  intros l P. set (k := fun x => - s_top x). split.
  - intros [p M]. apply make_pile_ok in M. destruct M as (N & E & C). split; auto.
    assert (Pp : proper p) by (eapply proper_perm; [|exact P]; subst p; apply sort_perm).
    destruct p as [|s t].
    + exfalso. apply N. apply Permutation_nil. apply Permutation_sym. rewrite E. apply sort_perm.
    + destruct (connected_tiles t s Pp C) as (b & _ & _ & T).
      exists (s_top s), b. intros z. specialize (T z).
      rewrite (occupied_perm l (s :: t)); auto. rewrite E. apply sort_perm.
  - intros (N & t & b & T). exists (sort_by k l). apply make_pile_ok. split; auto. split; auto.
    apply (tiles_connected _ t b).
    + eapply proper_perm; [|exact P]. apply sort_perm.
    + apply sort_sorted.
    + intros z. rewrite <- (occupied_perm l (sort_by k l)); [apply T|apply sort_perm].
Qed.

Lemma pile_fills : forall l p, proper l -> make_pile l = Ok p ->
  Permutation l p /\
  exists t b, pile_top p = Ok t /\ pile_bottom p = Ok b /\ b < t /\ tiles_interval l t b.
Proof.
  intros l p P M. apply make_pile_ok in M. destruct M as (N & E & C).
  assert (PM : Permutation l p) by (subst p; apply sort_perm).
  split; auto. assert (Pp : proper p) by (eapply proper_perm; eauto).
  destruct p as [|s t].
  - exfalso. apply N. apply Permutation_nil. apply Permutation_sym; auto.
  - destruct (connected_tiles t s Pp C) as (b & Hb & L & T).
    exists (s_top s), b. repeat split; auto.
    + rewrite (occupied_perm l (s :: t)); auto. apply T.
    + rewrite (occupied_perm l (s :: t)); auto. apply T.
Qed.

(** sums *)
Lemma connected_tip : forall t s, proper (s :: t) -> connected (s :: t) = true ->
  exists e, last_section (s :: t) = Ok e /\ In e (s :: t) /\
    forall s', In s' (s :: t) -> s_bottom e <= s_bottom s'.
Proof.
  induction t as [|s2 t IH]; intros s P C.
  - exists s. split; [reflexivity|]. split; [left; reflexivity|].
    intros s' [<-|[]]. apply Qle_refl.
  - apply connected_cons in C. destruct C as [E C].
    assert (P2 : proper (s2 :: t)) by (intros x X; apply P; right; exact X).
    destruct (IH s2 P2 C) as (e & L & J & M). exists e.
    split; [rewrite last_section_cons; exact L|]. split; [right; exact J|].
    intros s' [<-|X]; [|apply M, X].
    apply Qle_trans with (s_bottom s2); [apply M; left; reflexivity|].
    rewrite <- E. apply Qlt_le_weak, P. right; left; reflexivity.
Qed.

Lemma pile_tip : forall l p, proper l -> make_pile l = Ok p ->
  exists s, In s l /\ (forall s', In s' l -> s_bottom s <= s_bottom s') /\
    pile_bottom p = Ok (s_bottom s) /\
    tip_area p = Ok (s_area s) /\ tip_footprint p = Ok (s_footprint s).
Proof.
  intros l p P M. pose proof (proj1 (make_pile_ok l p) M) as K.
  assert (PM : Permutation l p) by (destruct (pile_fills l p P M) as [PM _]; exact PM).
  assert (C : connected p = true) by (decompose [and] K; subst; assumption).
  destruct p as [|s t]; [unfold make_pile in M; destruct (Nat.eqb (length l) 0) eqn:N; [discriminate|]; apply Permutation_sym, Permutation_nil in PM; subst l; discriminate N|].
  destruct (connected_tip t s (proper_perm _ _ PM P) C) as (e & L & J & B).
  exists e. split; [apply (Permutation_in _ (Permutation_sym PM) J)|].
  split; [intros s' X; apply B, (Permutation_in _ PM X)|].
  unfold pile_bottom, tip_area, tip_footprint. rewrite L. repeat split; reflexivity.
Qed.

Lemma connected_length : forall t s, connected (s :: t) = true ->
  exists len, pile_length (s :: t) = Ok len /\ len == Qsum (map s_length (s :: t)).
Proof.
  induction t as [|s' t IH]; intros s C.
  - eexists. split; [reflexivity|]. simpl. unfold s_length. ring.
  - apply connected_cons in C. destruct C as [E C]. destruct (IH s' C) as (len & H & Hl).
    unfold pile_length, pile_bottom in *. rewrite last_section_cons.
    destruct (last_section (s' :: t)) as [u|] eqn:U; simpl in *; [|discriminate].
    eexists. split; [reflexivity|]. inversion H; subst len.
    simpl in Hl. rewrite <- Hl. unfold s_length. rewrite <- E. ring.
Qed.

Lemma pile_length_sum : forall l p, make_pile l = Ok p ->
  exists len, pile_length p = Ok len /\ len == Qsum (map s_length l).
Proof.
  intros l p M. apply make_pile_ok in M. destruct M as (N & E & C).
  assert (PM : Permutation l p) by (subst p; apply sort_perm).
  destruct p as [|s t].
  - exfalso. apply N. apply Permutation_nil. apply Permutation_sym; auto.
  - destruct (connected_length t s C) as (len & H & Hl). exists len. split; auto. rewrite Hl.
    clear - PM. assert (forall l l', Permutation l l' -> Qsum (map s_length l) == Qsum (map s_length l')).
    { clear. intros l l' P. induction P; simpl; try reflexivity.
      - rewrite IHP. reflexivity.
      - ring.
      - rewrite IHP1; auto. }
    symmetry. auto.
Qed.

Lemma Qsum_perm : forall A (f : A -> Q) l l', Permutation l l' -> Qsum (map f l) == Qsum (map f l').
Proof.
  intros A f l l' P. induction P; simpl; try reflexivity.
  - rewrite IHP. reflexivity.
  - ring.
  - rewrite IHP1; auto.
Qed.

Lemma Qsum_pos : forall A (f : A -> Q) l, l <> [] -> (forall x, In x l -> 0 < f x) -> 0 < Qsum (map f l).
Proof.
  intros A f l. induction l as [|h t IH]; intros N H; [congruence|]. simpl.
  specialize (H h (or_introl eq_refl)) as Hh. destruct t as [|h' t]; [simpl; lra|].
  assert (0 < Qsum (map f (h' :: t))) by (apply IH; [discriminate|intros; apply H; right; auto]). lra.
Qed.

Lemma pile_volume_sum : forall l p, make_pile l = Ok p ->
  pile_volume p == Qsum (map (fun s => s_area s * (s_top s - s_bottom s)) l).
Proof.
  intros l p M. apply make_pile_ok in M. destruct M as (_ & E & _).
  unfold pile_volume. apply Qsum_perm. subst p. apply Permutation_sym, sort_perm.
Qed.

Lemma pile_positive : forall l p w, proper l -> make_pile l = Ok p ->
  (forall s, In s l -> 0 < s_area s) -> 0 < w ->
  (exists len, pile_length p = Ok len /\ 0 < len) /\ 0 < pile_volume p /\ 0 < pile_weight w p.
Proof.
  intros l p w P M A W.
  assert (N : l <> []) by (apply make_pile_ok in M; tauto).
  assert (V : 0 < pile_volume p).
  { rewrite (pile_volume_sum l p M). apply Qsum_pos; auto.
    intros s Hs. specialize (A s Hs). specialize (P s Hs).
    assert (0 < s_top s - s_bottom s) by lra. nra. }
  split; [|split; auto].
  - destruct (pile_length_sum l p M) as (len & H & Hl). exists len. split; auto. rewrite Hl.
    apply Qsum_pos; auto. intros s Hs. specialize (P s Hs). unfold s_length. lra.
  - unfold pile_weight. nra.
Qed.

(** ** Circular sections *)

Lemma mpi_pos : 0 < mpi.
Proof. reflexivity. Qed.

Lemma circular_ok : forall top bottom d t s, circular top bottom d t = Ok s ->
  0 < d /\ bottom < top /\ 0 < proper_thickness d t /\
  s = mkSection top bottom d (circ_area d (proper_thickness d t)) (circ_inertia d (proper_thickness d t))
        (circ_entrapped d (proper_thickness d t)) (circ_outer d) (circ_inner d (proper_thickness d t))
        (circ_footprint d).
Proof.
  intros top bottom d t s. unfold circular.
  destruct (Qltb 0 d) eqn:D; simpl; [|discriminate]. apply Qltb_true in D.
  destruct t as [w|]; simpl.
  - destruct (Qltb 0 w) eqn:W; simpl; [|discriminate]. apply Qltb_true in W.
    destruct (Qle_bool top bottom) eqn:E; [discriminate|]. apply Qleb_false in E.
    intros H; inversion H; auto.
  - destruct (Qle_bool top bottom) eqn:E; [discriminate|]. apply Qleb_false in E.
    intros H; inversion H; repeat split; auto.
    unfold Qdiv. change (/ 2) with (1#2). lra.
Qed.

Lemma circular_accepted : forall top bottom d t,
  (exists s, circular top bottom d t = Ok s) <->
  0 < d /\ bottom < top /\ (forall w, t = Some w -> 0 < w).
Proof.
  intros top bottom d t. split.
  - intros [s H]. pose proof (circular_ok _ _ _ _ _ H) as (A & B & C & _).
    split; auto. split; auto. intros w ->. exact C.
  - intros (A & B & C). unfold circular.
    apply Qltb_true in A. rewrite A. simpl.
    assert (E : Qle_bool top bottom = false) by (apply Qleb_false; auto). rewrite E.
    destruct t as [w|]; [|eexists; reflexivity].
    specialize (C w eq_refl). apply Qltb_true in C. rewrite C. eexists; reflexivity.
Qed.

Lemma circular_area_balance : forall top bottom d t s, circular top bottom d t = Ok s ->
  s_area s + s_entrapped s == s_footprint s.
Proof.
  intros top bottom d t s H. apply circular_ok in H. destruct H as (_ & _ & _ & ->). simpl.
  unfold circ_area, circ_entrapped, circ_footprint. field.
Qed.

Lemma sq_nonneg : forall x : Q, 0 <= x ^ 2.
Proof. intros. change (x ^ 2) with (x * x). nra. Qed.

Lemma quarter : forall x, x * mpi / 4 == x * (mpi * (1#4)).
Proof. intros. unfold Qdiv. change (/4) with (1#4). ring. Qed.

Lemma mpi4_pos : 0 < mpi * (1#4).
Proof. reflexivity. Qed.

Lemma circular_nonneg : forall top bottom d t s, circular top bottom d t = Ok s ->
  (forall w, t = Some w -> w <= d / 2) ->
  0 < s_area s /\ 0 <= s_entrapped s /\ 0 <= s_inner s /\ 0 < s_inertia s /\
  s_inner s < s_outer s /\ s_area s <= s_footprint s.
Proof.
  intros top bottom d t s H W. apply circular_ok in H. destruct H as (D & _ & T & ->). simpl.
  assert (W' : 2 * proper_thickness d t <= d).
  { destruct t as [w|]; simpl.
    - specialize (W w eq_refl). unfold Qdiv in W. change (/2) with (1#2) in W. lra.
    - unfold Qdiv. change (/2) with (1#2). lra. }
  set (w := proper_thickness d t) in *. clearbody w. clear W.
  unfold circ_area, circ_entrapped, circ_inner, circ_inertia, circ_outer, circ_footprint.
  pose proof mpi_pos as PI. pose proof mpi4_pos as PI4.
  assert (A : 0 < d^2 - (d - 2*w)^2).
  { change (d^2) with (d*d). change ((d-2*w)^2) with ((d-2*w)*(d-2*w)). nra. }
  assert (B : 0 <= (d - 2*w)^2) by apply sq_nonneg.
  assert (I : 0 < d^4 - (d-2*w)^4).
  { assert (F : d^4 - (d-2*w)^4 == (d^2 - (d-2*w)^2) * (d^2 + (d-2*w)^2)) by ring.
    rewrite F. assert (0 < d^2) by (change (d^2) with (d*d); nra).
    assert (0 < d^2 + (d-2*w)^2) by lra. nra. }
  rewrite !quarter.
  assert (I64 : (d^4 - (d-2*w)^4) * mpi / 64 == (d^4 - (d-2*w)^4) * (mpi * (1#64))).
  { unfold Qdiv. change (/64) with (1#64). ring. }
  rewrite I64. assert (P64 : 0 < mpi * (1#64)) by reflexivity.
  set (m4 := mpi * (1#4)) in *. set (m64 := mpi * (1#64)) in *. clearbody m4 m64.
  generalize dependent mpi. intros mp PI I64. clear I64.
  repeat split; try nra.
Qed.

Lemma circular_solid : forall top bottom d s, circular top bottom d None = Ok s ->
  s_entrapped s == 0 /\ s_inner s == 0 /\ s_area s == s_footprint s.
Proof.
  intros top bottom d s H. apply circular_ok in H. destruct H as (_ & _ & _ & ->). simpl.
  unfold circ_entrapped, circ_inner, circ_area, circ_footprint.
  assert (Z : d - 2 * (d / 2) == 0) by field.
  repeat split; rewrite Z; field.
Qed.

Lemma circular_sections_proper : forall l, (forall s, In s l -> exists top bottom d t, circular top bottom d t = Ok s) ->
  proper l.
Proof.
  intros l H s Hs. destruct (H s Hs) as (top & bottom & d & t & E).
  apply circular_ok in E. destruct E as (_ & B & _ & ->). exact B.
Qed.

Lemma circ_volumes : forall d t len,
  circ_volume d t len + circ_entrapped_volume d t len == circ_footprint d * len.
Proof. intros. unfold circ_volume, circ_entrapped_volume, circ_area, circ_footprint. field. Qed.

Lemma tubular_ok : forall top bottom d wt p, create_tubular top bottom d wt = Ok p ->
  exists s, p = [s] /\ circular top bottom d (Some wt) = Ok s /\
    pile_length p = Ok (top - bottom) /\ pile_volume p == circ_area d wt * (top - bottom).
Proof.
  intros top bottom d wt p H. unfold create_tubular in H.
  destruct (circular top bottom d (Some wt)) as [s|] eqn:E; simpl in H; [|discriminate].
  inversion H; subst p. exists s. apply circular_ok in E as (_ & _ & _ & ->).
  repeat split; auto. unfold pile_volume, s_length. simpl. ring.
Qed.

(** ** Soil profiles *)

Lemma m_isclose_iff : forall a b, m_isclose a b = true <-> near a b.
Proof.
  intros a b. unfold m_isclose, near. rewrite Qleb_true.
  assert (Q9 : 0 < (1 # 1000000000)) by reflexivity.
  set (r := (1 # 1000000000)) in *. clearbody r.
  set (x := Qabs (a - b)). set (u := Qabs a). set (v := Qabs b).
  rewrite !Q.max_le_iff. split.
  - intros [H|H]; auto.
    destruct (Q.max_spec u v) as [[L E]|[L E]]; rewrite E in H; auto.
  - intros [H|[H|H]]; auto; left.
    + assert (u <= Qmax u v) by apply Q.le_max_l. nra.
    + assert (v <= Qmax u v) by apply Q.le_max_r. nra.
Qed.

Lemma stacked_iff : forall l, stacked l = true <-> follow l.
Proof.
  induction l as [|a t IH].
  - split; auto. intros _ i x y H. destruct i; discriminate.
  - destruct t as [|b t].
    + split; auto. intros _ [|i] x y Hx Hy; [discriminate|destruct i; discriminate].
    + simpl stacked. rewrite andb_true_iff, m_isclose_iff, IH. split.
      * intros [N F] [|i] x y Hx Hy; simpl in *.
        -- inversion Hx; inversion Hy; subst; auto.
        -- apply (F i x y Hx Hy).
      * intros F. split; [apply (F O a b); reflexivity|].
        intros i x y Hx Hy. apply (F (S i) x y Hx Hy).
Qed.

Lemma sorted_descending : forall l, StronglySorted (kle l_top) l -> descending (rev l).
Proof.
  intros l SS. unfold descending.
  assert (G : forall l, StronglySorted (kle l_top) l -> forall i j a b, (i < j)%nat ->
     nth_error l i = Some a -> nth_error l j = Some b -> l_top a <= l_top b).
  { clear. intros l SS. induction SS as [|h t SS IH F]; intros i j a b L Hi Hj; [destruct i; discriminate|].
    destruct j; [lia|]. destruct i; simpl in *.
    - inversion Hi; subst. apply nth_error_In in Hj. rewrite Forall_forall in F. apply F; auto.
    - apply (IH i j); auto; lia. }
  intros i j a b L Hi Hj.
  assert (Li : (i < length l)%nat) by (rewrite <- (rev_length l); apply nth_error_Some; congruence).
  assert (Lj : (j < length l)%nat) by (rewrite <- (rev_length l); apply nth_error_Some; congruence).
  assert (Ri : nth_error l (length l - S i) = Some a).
  { rewrite <- (rev_involutive l) at 1. rewrite (nth_error_nth' _ a) by (rewrite rev_involutive; lia).
    rewrite rev_nth by (rewrite rev_length; lia). rewrite rev_length.
    replace (length l - S (length l - S i))%nat with i by lia. f_equal.
    apply nth_error_nth with (d := a) in Hi. auto. }
  assert (Rj : nth_error l (length l - S j) = Some b).
  { rewrite <- (rev_involutive l) at 1. rewrite (nth_error_nth' _ b) by (rewrite rev_involutive; lia).
    rewrite rev_nth by (rewrite rev_length; lia). rewrite rev_length.
    replace (length l - S (length l - S j))%nat with j by lia. f_equal.
    apply nth_error_nth with (d := b) in Hj. auto. }
  apply (G l SS (length l - S j)%nat (length l - S i)%nat b a); auto. lia.
Qed.

Lemma layers_down_perm : forall l, Permutation l (layers_down l).
Proof.
  intros l. unfold layers_down. rewrite <- Permutation_rev. apply sort_perm.
Qed.

Lemma layers_down_descending : forall l, descending (layers_down l).
Proof. intros. apply sorted_descending, sort_sorted. Qed.

Lemma profile_ok : forall ground l r, make_profile ground l = Ok r <->
  r = l /\ follow (layers_down l) /\ exists a t, layers_down l = a :: t /\ l_top a == ground.
Proof.
  intros ground l r. unfold make_profile.
  destruct (layers_down l) as [|a t] eqn:E.
  - split; [discriminate|]. intros (_ & _ & a & t & C & _). discriminate.
  - destruct (Qeq_bool (l_top a) ground) eqn:G; simpl negb; cbn match.
    + apply Qeqb_true in G. destruct (stacked (a :: t)) eqn:S.
      * apply stacked_iff in S. split.
        -- intros H; inversion H; subst. split; auto. split; auto. eauto.
        -- intros (-> & _). reflexivity.
      * split; [discriminate|]. intros (_ & F & _). apply stacked_iff in F. congruence.
    + split; [discriminate|]. intros (_ & _ & a' & t' & C & G'). inversion C; subst.
      apply Qeqb_true in G'. congruence.
Qed.

Lemma profile_sound : forall ground l r, make_profile ground l = Ok r ->
  r = l /\ stack_of ground l (layers_down l).
Proof.
  intros ground l r H. apply profile_ok in H. destruct H as (E & F & X). split; auto.
  repeat split; auto using layers_down_perm, layers_down_descending.
Qed.

Lemma descending_rev_sorted : forall d, descending d -> StronglySorted (kle l_top) (rev d).
Proof.
  induction d as [|a t IH]; intros D; simpl; [constructor|].
  assert (Dt : descending t).
  { intros i j x y L Hx Hy. apply (D (S i) (S j) x y); auto; lia. }
  specialize (IH Dt).
  assert (F : forall x, In x (rev t) -> l_top x <= l_top a).
  { intros x Hx. apply in_rev in Hx. apply In_nth_error in Hx. destruct Hx as [j Hj].
    apply (D O (S j) a x); auto; lia. }
  clear D Dt. induction (rev t) as [|h r IHr]; simpl.
  - repeat constructor.
  - inversion IH as [|? ? S' F']; subst. constructor.
    + apply IHr; auto. intros x Hx; apply F; right; auto.
    + apply Forall_app. split; auto. constructor; auto. apply F; left; auto.
Qed.

Lemma distinct_strict : forall l, distinct_tops l -> StronglySorted (kle l_top) l ->
  StronglySorted (fun a b => l_top a < l_top b) l.
Proof.
  intros l D SS. induction SS as [|h t SS IH F]; constructor.
  - apply IH. intros i j a b Hi Hj E. specialize (D (S i) (S j) a b Hi Hj E). lia.
  - rewrite Forall_forall in *. intros x Hx. specialize (F x Hx). unfold kle in F.
    apply In_nth_error in Hx. destruct Hx as [j Hj].
    specialize (D O (S j) h x eq_refl Hj).
    destruct (Qlt_le_dec (l_top h) (l_top x)) as [|L]; auto.
    assert (l_top h == l_top x) by lra. specialize (D H). lia.
Qed.

Lemma distinct_perm : forall l l', Permutation l l' -> distinct_tops l -> distinct_tops l'.
Proof.
  assert (EQ : forall l, distinct_tops l <-> ForallOrdPairs (fun a b => ~ l_top a == l_top b) l).
  { induction l as [|h t IH].
    - split; [constructor|]. intros _ i j a b H. destruct i; discriminate.
    - split.
      + intros D. constructor.
        * apply Forall_forall. intros x Hx E. apply In_nth_error in Hx. destruct Hx as [j Hj].
          specialize (D O (S j) h x eq_refl Hj E). lia.
        * apply IH. intros i j a b Hi Hj E. specialize (D (S i) (S j) a b Hi Hj E). lia.
      + intros D. inversion D as [|? ? F P]; subst. apply IH in P. rewrite Forall_forall in F.
        intros [|i] [|j] a b Hi Hj E; simpl in *; auto.
        * inversion Hi; subst. exfalso. apply (F b); auto. eapply nth_error_In; eauto.
        * inversion Hj; subst. exfalso. apply (F a); [eapply nth_error_In; eauto|]. symmetry; auto.
        * f_equal. apply (P i j a b); auto. }
  intros l l' P D. apply EQ in D. apply EQ.
  induction P; auto.
  - inversion D as [|? ? F Q']; subst. constructor; auto.
    rewrite Forall_forall in *. intros y Hy. apply F. eapply Permutation_in; [apply Permutation_sym|]; eauto.
  - inversion D as [|? ? F Q']; subst. inversion Q' as [|? ? F' Q'']; subst.
    inversion F; subst. constructor; [constructor; auto|constructor; auto].
    intros C. apply H1. symmetry; auto.
Qed.

Lemma profile_complete : forall ground l d, distinct_tops l -> stack_of ground l d ->
  make_profile ground l = Ok l /\ layers_down l = d.
Proof.
  intros ground l d D (P & DE & F & a & t & E & G).
  assert (X : layers_down l = d).
  { unfold layers_down. rewrite <- (rev_involutive d). f_equal. symmetry.
    apply (strict_sorted_unique l_top).
    - apply distinct_strict; [|apply descending_rev_sorted; auto].
      eapply distinct_perm; [|exact D]. rewrite P. apply Permutation_rev.
    - apply sort_sorted.
    - rewrite <- Permutation_rev, <- (sort_perm l_top l). symmetry; auto. }
  split; auto. apply profile_ok. rewrite X. split; auto. split; auto. eauto.
Qed.

Lemma profile_accepted_iff : forall ground l, distinct_tops l ->
  ((exists r, make_profile ground l = Ok r) <-> exists d, stack_of ground l d).
Proof.
  intros ground l D. split.
  - intros [r H]. apply profile_sound in H. destruct H. eauto.
  - intros [d S]. destruct (profile_complete ground l d D S). eauto.
Qed.

Lemma profile_order : forall ground l l', distinct_tops l -> Permutation l l' ->
  is_ok (make_profile ground l) = is_ok (make_profile ground l').
Proof.
  intros ground l l' D P.
  assert (D' : distinct_tops l') by (eapply distinct_perm; eauto).
  assert (T : forall l l', distinct_tops l -> distinct_tops l' -> Permutation l l' ->
     is_ok (make_profile ground l) = true -> is_ok (make_profile ground l') = true).
  { clear. intros l l' D D' P H. destruct (make_profile ground l) as [r|] eqn:E; [|discriminate].
    apply profile_sound in E. destruct E as (_ & PM & R).
    assert (S' : stack_of ground l' (layers_down l)) by (split; [rewrite <- P; auto|auto]).
    destruct (profile_complete _ _ _ D' S') as [-> _]. reflexivity. }
  destruct (is_ok (make_profile ground l)) eqn:E.
  - symmetry. eapply T; eauto.
  - destruct (is_ok (make_profile ground l')) eqn:E'; auto.
    apply (T l' l) in E'; auto using Permutation_sym. congruence.
Qed.

Lemma last_default : forall A (t : list A) x d d', last (x :: t) d = last (x :: t) d'.
Proof.
  induction t as [|y t IH]; intros x d d'; auto.
  change (last (x :: y :: t) d) with (last (y :: t) d).
  change (last (x :: y :: t) d') with (last (y :: t) d'). auto.
Qed.

(** gaps between consecutive layers, from the ground down *)
Fixpoint gaps (d : list layer) : list Q :=
  match d with
  | a :: ((b :: _) as t) => (l_bottom a - l_top b) :: gaps t
  | _ => []
  end.

Lemma drift_down : forall t a, proper_layers (a :: t) ->
  l_top a - Qsum (map (fun x => Qabs (l_top x - l_bottom x)) (a :: t)) ==
  l_bottom (last (a :: t) a) + Qsum (gaps (a :: t)).
Proof.
  induction t as [|b t IH]; intros a P.
  - unfold Qsum. cbn [map fold_right last gaps].
    rewrite Qabs_pos by (specialize (P a (or_introl eq_refl)); lra). ring.
  - assert (P' : proper_layers (b :: t)) by (intros x Hx; apply P; right; auto).
    specialize (IH b P').
    assert (L : last (a :: b :: t) a = last (b :: t) b).
    { change (last (a :: b :: t) a) with (last (b :: t) a). apply last_default. }
    rewrite L. unfold Qsum in *. cbn [map fold_right] in *.
    change (gaps (a :: b :: t)) with ((l_bottom a - l_top b) :: gaps (b :: t)).
    cbn [fold_right].
    rewrite (Qabs_pos (l_top a - l_bottom a)) by (specialize (P a (or_introl eq_refl)); lra).
    lra.
Qed.

Lemma profile_drift : forall ground l r, proper_layers l -> make_profile ground l = Ok r ->
  exists x, In x l /\ (forall y, In y l -> l_top x <= l_top y) /\
    profile_bottom ground l == l_bottom x + Qsum (gaps (layers_down l)).
Proof.
  intros ground l r P H. apply profile_ok in H. destruct H as (_ & F & a & t & E & G).
  pose proof (layers_down_perm l) as PM. pose proof (layers_down_descending l) as DE.
  rewrite E in *.
  assert (P' : proper_layers (a :: t)).
  { intros x Hx. apply P. eapply Permutation_in; [apply Permutation_sym|]; eauto. }
  exists (last (a :: t) a). split; [|split].
  - eapply Permutation_in; [apply Permutation_sym; exact PM|].
    clear. revert a. induction t as [|b t IH]; intros a; [left; auto|].
    right. assert (L : last (a :: b :: t) a = last (b :: t) b).
    { change (last (a :: b :: t) a) with (last (b :: t) a). apply last_default. }
    rewrite L. apply IH.
  - intros y Hy. apply (Permutation_in _ PM) in Hy. apply In_nth_error in Hy. destruct Hy as [i Hi].
    assert (Hl : nth_error (a :: t) (length t) = Some (last (a :: t) a)).
    { clear. change (length t) with (pred (length (a :: t))).
      assert (N : a :: t <> []) by discriminate. revert N. generalize (a :: t). intros l N.
      destruct (exists_last N) as (l' & x & ->). rewrite last_last, app_length. simpl.
      replace (pred (length l' + 1)) with (length l') by lia.
      rewrite nth_error_app2, Nat.sub_diag by lia. reflexivity. }
    assert (Li : (i < length (a :: t))%nat) by (apply nth_error_Some; congruence). simpl in Li.
    destruct (Nat.eq_dec i (length t)) as [->|N].
    + assert (Ey : y = last (a :: t) a) by congruence. rewrite Ey. apply Qle_refl.
    + apply (DE i (length t) y); auto. lia.
  - unfold profile_bottom. rewrite <- G.
    rewrite (Qsum_perm _ _ l (a :: t)) by auto. apply drift_down; auto.
Qed.

Lemma gaps_bound : forall d, follow d ->
  (forall x, In x d -> Qabs (l_top x) <= 1000000 /\ Qabs (l_bottom x) <= 1000000) ->
  Qabs (Qsum (gaps d)) <= 0.001 * inject_Z (Z.of_nat (length d - 1)).
Proof.
  induction d as [|a t IH]; intros F B; [vm_compute; discriminate|].
  destruct t as [|b t]; [vm_compute; discriminate|].
  assert (F' : follow (b :: t)) by (intros i x y Hx Hy; apply (F (S i) x y Hx Hy)).
  assert (B' : forall x, In x (b :: t) -> Qabs (l_top x) <= 1000000 /\ Qabs (l_bottom x) <= 1000000)
    by (intros x Hx; apply B; right; auto).
  specialize (IH F' B'). change (Qsum (gaps (a :: b :: t))) with ((l_bottom a - l_top b) + Qsum (gaps (b :: t))).
  eapply Qle_trans; [apply Qabs_triangle|].
  assert (N : Qabs (l_bottom a - l_top b) <= 0.001).
  { assert (NN : near (l_top b) (l_bottom a)) by (apply (F O a b); reflexivity).
    rewrite Qabs_Qminus.
    destruct (B b (or_intror (or_introl eq_refl))) as [Bt _].
    destruct (B a (or_introl eq_refl)) as [_ Bb].
    destruct NN as [H|[H|H]]; lra. }
  replace (length (a :: b :: t) - 1)%nat with (S (length (b :: t) - 1)) by (simpl; lia).
  rewrite Nat2Z.inj_succ, <- Z.add_1_r, inject_Z_plus. change (inject_Z 1) with 1. lra.
Qed.

Lemma profile_drift_bound : forall ground l r, proper_layers l -> make_profile ground l = Ok r ->
  (forall x, In x l -> Qabs (l_top x) <= 1000000 /\ Qabs (l_bottom x) <= 1000000) ->
  exists x, In x l /\ (forall y, In y l -> l_top x <= l_top y) /\
    Qabs (profile_bottom ground l - l_bottom x) <= 0.001 * inject_Z (Z.of_nat (length l - 1)).
Proof.
  intros ground l r P H B. destruct (profile_drift ground l r P H) as (x & Hx & Lx & E).
  exists x. split; auto. split; auto.
  assert (X : profile_bottom ground l - l_bottom x == Qsum (gaps (layers_down l))) by lra.
  rewrite X. pose proof (layers_down_perm l) as PM.
  rewrite (Permutation_length PM). apply gaps_bound.
  - apply profile_ok in H. tauto.
  - intros y Hy. apply B. eapply Permutation_in; [apply Permutation_sym|]; eauto.
Qed.

Lemma gaps_zero : forall d, (forall i a b, nth_error d i = Some a -> nth_error d (S i) = Some b ->
   l_top b == l_bottom a) -> Qsum (gaps d) == 0.
Proof.
  induction d as [|a t IH]; intros H; [reflexivity|]. destruct t as [|b t]; [reflexivity|].
  change (Qsum (gaps (a :: b :: t))) with ((l_bottom a - l_top b) + Qsum (gaps (b :: t))).
  rewrite IH by (intros i x y Hx Hy; apply (H (S i) x y Hx Hy)).
  rewrite (H O a b) by reflexivity. ring.
Qed.

Lemma profile_bottom_exact : forall ground l r, proper_layers l -> make_profile ground l = Ok r ->
  (forall i a b, nth_error (layers_down l) i = Some a -> nth_error (layers_down l) (S i) = Some b ->
     l_top b == l_bottom a) ->
  exists b, lowest_bottom l b /\ profile_bottom ground l == b.
Proof.
  intros ground l r P H X. destruct (profile_drift ground l r P H) as (x & Hx & Lx & E).
  rewrite (gaps_zero _ X) in E. exists (l_bottom x). split; [|lra].
  split; [exists x; split; auto; reflexivity|].
  intros y Hy.
  (* exact stacking: every layer bottom is the top of a layer or the lowest bottom *)
  pose proof (layers_down_perm l) as PM.
  apply (Permutation_in _ PM) in Hy. apply In_nth_error in Hy. destruct Hy as [i Hi].
  destruct (nth_error (layers_down l) (S i)) as [z|] eqn:Z.
  - specialize (X i y z Hi Z). assert (Hz : In z l).
    { eapply Permutation_in; [apply Permutation_sym; exact PM|]. eapply nth_error_In; eauto. }
    specialize (Lx z Hz). specialize (P x Hx). lra.
  - (* y is the last one: it has the lowest top *)
    assert (Hx' : In x (layers_down l)) by (eapply Permutation_in; eauto).
    apply In_nth_error in Hx'. destruct Hx' as [j Hj].
    assert (Lj : (j < length (layers_down l))%nat) by (apply nth_error_Some; congruence).
    apply nth_error_None in Z.
    destruct (Nat.eq_dec i j) as [->|N].
    + rewrite Hi in Hj. inversion Hj; subst. lra.
    + (* x above y strictly *)
      assert (Li : (i < length (layers_down l))%nat) by (apply nth_error_Some; congruence).
      assert (exists w, nth_error (layers_down l) (S j) = Some w) as [w Hw].
      { destruct (nth_error (layers_down l) (S j)) eqn:W; eauto. apply nth_error_None in W. lia. }
      specialize (X j x w Hj Hw). assert (Hwl : In w l).
      { eapply Permutation_in; [apply Permutation_sym; exact PM|]. eapply nth_error_In; eauto. }
      specialize (Lx w Hwl). specialize (P x Hx). lra.
Qed.

(** ** Witnesses *)

Lemma thick_wall_witness :
  exists top bottom d w s, circular top bottom d (Some w) = Ok s /\ s_inner s < 0 /\ s_area s < 0 /\
    s_inertia s < 0.
Proof.
  exists 0, (-10), 1, 1.5. eexists. split; [vm_compute; reflexivity|].
  repeat split; reflexivity.
Qed.

Lemma negative_weight_witness :
  exists p, create_tubular 0 (-10) 1 1.5 = Ok p /\ pile_weight 78 p < 0.
Proof. eexists. split; [vm_compute; reflexivity|]. reflexivity. Qed.

Lemma profile_order_witness :
  exists ground l l', proper_layers l /\ Permutation l l' /\
    is_ok (make_profile ground l) = true /\ is_ok (make_profile ground l') = false.
Proof.
  exists 0, [mkLayer 0 (-10) 18; mkLayer 0 (-0.0005) 18], [mkLayer 0 (-0.0005) 18; mkLayer 0 (-10) 18].
  split; [|split; [|split]].
  - intros x [<-|[<-|[]]]; reflexivity.
  - apply perm_swap.
  - vm_compute; reflexivity.
  - vm_compute; reflexivity.
Qed.

Lemma profile_bottom_witness :
  exists ground l r b, proper_layers l /\ make_profile ground l = Ok r /\ lowest_bottom l b /\
    ~ profile_bottom ground l == b.
Proof.
  exists 0, [mkLayer 0 (-10) 18; mkLayer (-10.001) (-20) 18]. eexists. exists (-20).
  split; [|split; [|split]].
  - intros x [<-|[<-|[]]]; reflexivity.
  - vm_compute; reflexivity.
  - split; [eexists; split; [right; left; reflexivity|reflexivity]|].
    intros x [<-|[<-|[]]]; vm_compute; discriminate.
  - intros C. vm_compute in C. discriminate.
Qed.
