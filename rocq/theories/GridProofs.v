From Coq Require Import List Bool Arith ZArith QArith Qabs Qminmax Qround Lia Lqa Sorted Permutation.
From Verif Require Import Base PileModel PileSpec PileProofs MeshModel MeshSpec MeshProofs StressModel StressSpec StressProofs WeightProofs.
Import ListNotations.
Local Open Scope Q_scope.

Lemma rint_mono : forall a b, a <= b -> (rint a <= rint b)%Z.
Proof.
  intros a b L. destruct (Z_le_gt_dec (rint a) (rint b)) as [|G]; auto.
  pose proof (rint_bound a) as A. pose proof (rint_bound b) as B. apply Qabs_Qle_condition in A, B.
  assert (X : inject_Z (rint b) + 1 <= inject_Z (rint a)).
  { change 1 with (inject_Z 1). rewrite <- inject_Z_plus, <- Zle_Qle. lia. }
  assert (E : a == b) by lra. rewrite (rint_comp _ _ E). lia.
Qed.

Lemma round4_mono : forall a b, a <= b -> round4 a <= round4 b.
Proof.
  intros a b L. unfold round4. rewrite !div10000.
  assert (X : inject_Z (rint (a * 10000)) <= inject_Z (rint (b * 10000))).
  { rewrite <- Zle_Qle. apply rint_mono. lra. }
  lra.
Qed.

(** ** neighbouring mesh points are both primary, or further apart than half the coarseness *)

Definition consec (R : Q -> Q -> Prop) (l : list Q) : Prop :=
  forall i a b, nth_error l i = Some a -> nth_error l (S i) = Some b -> R a b.

Lemma consec_cons : forall R a b t, consec R (a :: b :: t) <-> R a b /\ consec R (b :: t).
Proof.
  intros. split.
  - intros H. split; [apply (H O a b); reflexivity|]. intros i x y Hx Hy. apply (H (S i) x y Hx Hy).
  - intros [A B] [|i] x y Hx Hy; simpl in *.
    + inversion Hx; inversion Hy; subst; auto.
    + apply (B i x y Hx Hy).
Qed.

Definition okpair (z : list Q) (c u v : Q) : Prop := (contains z u /\ contains z v) \/ c * (1#2) < u - v.

Lemma okpair_comp : forall z c u u' v v', u == u' -> v == v' -> okpair z c u v -> okpair z c u' v'.
Proof.
  intros z c u u' v v' E E' [[A B]|H]; [left|right; lra].
  split; eapply contains_eq; eauto.
Qed.

Lemma run_consec : forall z c h a r b n j, b == a - Qnat (j + n) * h -> c * (1#2) < h ->
  consec (okpair z c) (b :: r) -> consec (okpair z c) (map (fun k => a - Qnat k * h) (seq j n) ++ b :: r).
Proof.
  intros z c h a r b n. induction n as [|n IH]; intros j B G SS; [exact SS|].
  simpl seq. cbn [map app].
  specialize (IH (S j)). replace (S j + n)%nat with (j + S n)%nat in IH by lia. specialize (IH B G SS).
  destruct n as [|n].
  - simpl in *. apply consec_cons. split; auto. right.
    rewrite B. replace (j + 1)%nat with (S j) by lia. rewrite Qnat_S. lra.
  - cbn [seq map app] in *. apply consec_cons. split; auto. right. rewrite Qnat_S. lra.
Qed.

Lemma consec_weaken : forall (R R' : Q -> Q -> Prop) l, (forall a b, R a b -> R' a b) -> consec R l -> consec R' l.
Proof. intros R R' l H C i a b Ha Hb. apply H. eapply C; eauto. Qed.

Lemma refine_pairs : forall z c m, 0 < c -> desc z -> refine z c = Some m ->
  consec (okpair z c) m /\ (forall a t, z = a :: t -> exists m', m = a :: m').
Proof.
  intros z c. induction z as [|a t IH]; intros m C D H.
  - simpl in H. inversion H; subst. split; [intros [|i]; discriminate|]. intros; discriminate.
  - destruct t as [|b t].
    + simpl in H. inversion H; subst. split; [intros [|[|i]]; discriminate|].
      intros x y E; inversion E; subst; eauto.
    + rewrite refine_cons2 in H. destruct (divider (a - b) c) as [d|] eqn:DV; [|discriminate].
      destruct (refine (b :: t) c) as [r|] eqn:R; [|discriminate].
      inversion H; subst m. clear H.
      inversion D as [|? ? Dt F]; subst.
      destruct (IH r C Dt eq_refl) as [CR HR]. destruct (HR b t eq_refl) as [r' ->].
      assert (AB : b < a) by (inversion F; subst; auto).
      destruct (divider_spec (a - b) c ltac:(lra) C) as (d' & D' & D1 & DC & DM).
      assert (d' = d) by congruence. subst d'.
      split; [|intros x y E; inversion E; subst; simpl; eauto].
      assert (CR' : consec (okpair (a :: b :: t) c) (b :: r')).
      { eapply consec_weaken; [|exact CR]. intros u v [[X Y]|X]; [left|right; auto].
        split; apply contains_cons; right; auto. }
      destruct (Nat.eq_dec d 1) as [->|N].
      * simpl. apply consec_cons. split; auto. left. split; apply contains_In; simpl; auto.
      * set (h := (a - b) / Qnat d) in *.
        assert (DP : 0 < Qnat d) by (apply Qnat_pos; auto).
        assert (HD : h * Qnat d == a - b) by (unfold h; field; lra).
        assert (GH : c * (1#2) < h).
        { specialize (DM (d - 1)%nat ltac:(lia)).
          assert (P1 : 1 <= Qnat (d - 1)) by (apply Qnat_ge1; lia).
          assert (E1 : Qnat d == Qnat (d - 1) + 1) by (rewrite <- Qnat_S; replace (S (d-1)) with d by lia; reflexivity).
          assert (X : c * Qnat (d - 1) < a - b).
          { assert (E2 : (a - b) == ((a - b) / Qnat (d - 1)) * Qnat (d - 1)) by (field; lra).
            rewrite E2. apply Qmult_lt_compat_r; lra. }
          assert (Y : c * (1#2) * Qnat d <= c * Qnat (d - 1)) by nra.
          apply (Qmult_lt_r _ _ (Qnat d)); auto. lra. }
        pose proof (run_consec (a :: b :: t) c h a r' b d 0) as RS.
        pose proof (sub_list a (a - b) d D1) as SL. fold h in SL. rewrite SL in RS.
        cbn [app] in *. 
        assert (RS' := RS ltac:(simpl; rewrite Qmult_comm, HD; ring) GH CR'). clear RS.
        intros [|i] u v Hu Hv.
        -- simpl in Hu. inversion Hu; subst u.
           eapply okpair_comp; [| reflexivity|apply (RS' O _ v eq_refl Hv)]. unfold Qnat; simpl; ring.
        -- apply (RS' (S i) u v Hu Hv).
Qed.

Lemma mesh_pairs : forall p b s x c m i u v, 0 < c -> mesh p b s x c = Some m ->
  nth_error m i = Some u -> nth_error m (S i) = Some v -> okpair (primary p b s x) c u v.
Proof.
  intros p b s x c m i u v C M Hu Hv.
  destruct (refine_steps (primary p b s x) c 0 C (Qle_refl 0) (half_pos c C)
             (desc_steps0 _ (primary_desc p b s x))) as (m' & R & S & _).
  destruct (refine_secondary _ _ _ R) as (r & S2 & CM).
  unfold mesh in M. rewrite S2 in M. assert (M' : unique_desc (primary p b s x ++ r) = m) by congruence. clear M.
  assert (F : Forall2 Qeq m m').
  { subst m. apply desc_unique; [apply unique_desc_desc|eapply steps_desc; [apply Qle_refl|eauto]|].
    intros y. rewrite unique_desc_contains. symmetry. apply CM. }
  destruct (refine_pairs _ _ _ C (primary_desc p b s x) R) as [CP _].
  destruct (Forall2_nth _ _ _ _ _ _ _ F Hu) as (u' & Hu' & Eu).
  destruct (Forall2_nth _ _ _ _ _ _ _ F Hv) as (v' & Hv' & Ev).
  eapply okpair_comp; [symmetry; exact Eu|symmetry; exact Ev|]. eapply CP; eauto.
Qed.

(** ** elements of a mesh whose primary elevations have at most four decimals *)


Definition on_grid (y : Q) : Prop := round4 y == y.

Lemma elements_cons2 : forall a c t, elements_of (a :: c :: t) = (round4 a, round4 c) :: elements_of (c :: t).
Proof. reflexivity. Qed.

Lemma elements_chain : forall m a t, m = a :: t -> consec (fun u v => round4 v < round4 u) m ->
  chain (round4 a) (elements_of m) /\ chain_bottom (round4 a) (elements_of m) == round4 (last m a).
Proof.
  intros m a t. revert m a. induction t as [|c t IH]; intros m a -> H.
  - simpl. split; [exact I|reflexivity].
  - rewrite elements_cons2. apply consec_cons in H. destruct H as [L H].
    destruct (IH (c :: t) c eq_refl H) as [C B]. split.
    + simpl chain. split; [reflexivity|]. split; auto.
    + cbn [chain_bottom snd]. change (last (a :: c :: t) a) with (last (c :: t) a).
      rewrite (last_default _ t c a c). exact B.
Qed.

Lemma grid_strict : forall p b s x c m, 0.01 <= c -> mesh p b s x c = Some m ->
  (forall y, contains (primary p b s x) y -> on_grid y) ->
  consec (fun u v => round4 v < round4 u) m.
Proof.
  intros p b s x c m C M G i u v Hu Hv.
  destruct (mesh_spacing p b s x c m i u v ltac:(lra) M Hu Hv) as [SP _].
  destruct (mesh_pairs p b s x c m i u v ltac:(lra) M Hu Hv) as [[A B]|H].
  - apply G in A. apply G in B. unfold on_grid in *. lra.
  - apply round4_strict. lra.
Qed.

Lemma grid_respected : forall p b s x c m y, 0 < c -> mesh p b s x c = Some m ->
  contains (primary p b s x) y -> on_grid y -> respected (elements_of m) y.
Proof.
  intros p b s x c m y C M Hy G [t' b'] He. cbn [fst snd].
  apply In_nth_error in He. destruct He as [i Hi]. apply elements_nth in Hi. destruct Hi as [H1 H2].
  unfold nodes_of in *. rewrite nth_error_map in H1, H2.
  destruct (nth_error m i) as [u|] eqn:U; [|discriminate].
  destruct (nth_error m (S i)) as [v|] eqn:V; [|discriminate].
  simpl in H1, H2. inversion H1; inversion H2; subst.
  destruct (mesh_refine p b s x c 0 C (Qle_refl 0) (half_pos c C)
             (desc_steps0 _ (primary_desc p b s x))) as (m1 & m' & M1 & _ & _ & _ & PC & _).
  assert (m1 = m) by congruence. subst m1. destruct (PC y Hy) as (w & Hw & E).
  apply In_nth_error in Hw. destruct Hw as [j Hj].
  pose proof (mesh_descending _ _ _ _ _ _ M) as D.
  destruct (Nat.le_gt_cases j i) as [L|L].
  - right. unfold on_grid in G. rewrite <- G. apply round4_mono. destruct (Nat.eq_dec j i) as [->|N].
    + assert (u = w) by congruence. subst; lra.
    + specialize (D j i w u ltac:(lia) Hj U). lra.
  - left. unfold on_grid in G. rewrite <- G. apply round4_mono. destruct (Nat.eq_dec j (S i)) as [->|N].
    + assert (v = w) by congruence. subst; lra.
    + specialize (D (S i) j v w ltac:(lia) V Hj). lra.
Qed.

Lemma respected_out : forall top elems y, chain top elems -> (top <= y \/ y <= chain_bottom top elems) -> respected elems y.
Proof.
  intros top elems y C H e He. pose proof (chain_range _ _ _ C He). destruct H; [right|left]; lra.
Qed.

Lemma chain_split : forall elems top g, chain top elems -> respected elems g -> g <= top -> chain_bottom top elems < g ->
  exists above e0 below, elems = above ++ e0 :: below /\ (forall e, In e above -> g < fst e) /\ chain g (e0 :: below).
Proof.
  induction elems as [|e t IH]; intros top g C R G B; simpl in B; [lra|].
  destruct C as (E & P & C). destruct (R e (or_introl eq_refl)) as [H|H].
  - destruct (IH (snd e) g C) as (ab & e0 & be & -> & A & CH); auto.
    { intros x Hx; apply R; right; auto. }
    exists (e :: ab), e0, be. split; auto. split; auto. intros x [<-|Hx]; auto. lra.
  - exists [], e, t. split; auto. split; [intros x []|]. simpl. split; [lra|]. auto.
Qed.

Lemma chain_member_sub : forall above e0 below x, respected (above ++ e0 :: below) x -> respected (e0 :: below) x.
Proof. intros above e0 below x R e He. apply R. apply in_or_app. right; auto. Qed.

(** the facts of a mesh on the grid, gathered *)
Lemma grid_mesh : forall l p t b s x c m, proper l -> make_pile l = Ok p -> pile_top p = Ok t -> pile_bottom p = Ok b ->
  0.01 <= c -> mesh p b s x c = Some m -> (forall y, contains (primary p b s x) y -> on_grid y) ->
  (forall y, In y x -> b <= y) ->
  exists top, chain top (elements_of m) /\ chain_bottom top (elements_of m) == b /\
    (forall y, contains (primary p b s x) y -> y <= top /\ b <= y) /\ contains (primary p b s x) top.
Proof.
  intros l p t b s x c m P M T B C MM G X.
  assert (N : p <> []) by (intros ->; discriminate).
  destruct (mesh_ends p b s x c m ltac:(lra) MM N) as (NE & HI & LO).
  destruct (primary p b s x) as [|a tl] eqn:PR.
  { exfalso. destruct p as [|s0 p']; [congruence|].
    assert (C0 : contains (primary (s0 :: p') b s x) (s_top s0)).
    { apply primary_contains. left. apply pile_elevations_contains. exists s0. split; [left; auto|left; reflexivity]. }
    rewrite PR in C0. destruct (contains_nil _ C0). }
  rewrite <- PR in *.
  pose proof (primary_desc p b s x) as PD. 
  assert (CA : contains (primary p b s x) a) by (rewrite PR; apply contains_In; left; auto).
  assert (MAX : forall y, contains (primary p b s x) y -> y <= a).
  { intros y Hy. rewrite PR in *. eapply desc_head_max; eauto. }
  destruct (pile_bottom_in p b B) as (sb & Hsb & Eb).
  assert (HB : contains (primary p b s x) b).
  { apply primary_contains. left. apply pile_elevations_contains. exists sb. rewrite Eb. split; auto. right; reflexivity. }
  assert (MIN : forall y, contains (primary p b s x) y -> b <= y).
  { intros y Hy. apply primary_contains in Hy. destruct Hy as [Hy|[Hy|Hy]].
    - apply pile_elevations_contains in Hy. destruct Hy as (s1 & Hs & V).
      pose proof (pile_range l p t b P M T B s1 Hs).
      assert (s_bottom s1 < s_top s1).
      { destruct (pile_fills l p P M) as (PM & _). apply P. eapply Permutation_in; [apply Permutation_sym; eauto|auto]. }
      destruct V; lra.
    - destruct s as [ls|]; [|destruct (contains_nil _ Hy)].
      apply soil_elevations_contains in Hy. destruct Hy as [(k & Hk & V & L)|(E & _)]; lra.
    - destruct Hy as (z & Hz & E). specialize (X z Hz). lra. }
  specialize (HI a 0 CA MAX). specialize (LO b 0 HB MIN).
  destruct m as [|h m']; [congruence|]. simpl in HI.
  destruct (elements_chain (h :: m') h m' eq_refl (grid_strict _ _ _ _ _ _ C MM G)) as [CH CB].
  exists (round4 h). split; auto.
  assert (RH : round4 h == a) by (rewrite (round4_comp _ _ HI); apply G; auto).
  split; [|split].
  - rewrite CB. rewrite (last_default _ m' h h 0). rewrite (round4_comp _ _ LO). apply G; auto.
  - intros y Hy. specialize (MAX y Hy). specialize (MIN y Hy). lra.
  - eapply contains_eq; [symmetry; exact RH|auto].
Qed.


Definition water_meshed (pr : list Q) (water : Q) : Prop :=
  contains pr water \/ (forall y, contains pr y -> y <= water) \/ (forall y, contains pr y -> water <= y).

Lemma model_stress : forall l p t b layers d g water x c m,
  proper l -> make_pile l = Ok p -> pile_top p = Ok t -> pile_bottom p = Ok b ->
  Permutation layers d -> exact_stack g d -> stack_bottom g d <= b -> b < g -> d <> [] ->
  (forall y, In y x -> b <= y) -> 0.01 <= c -> mesh p b (Some layers) x c = Some m ->
  (forall y, contains (primary p b (Some layers) x) y -> on_grid y) ->
  water_meshed (primary p b (Some layers) x) water ->
  exists above e0 below tops bots, elements_of m = above ++ e0 :: below /\
    (forall e, In e above -> g < fst e) /\ chain g (e0 :: below) /\
    stress layers g water (elements_of m) = Ok (tops, bots) /\
    Forall2 nan_eq tops (map (fun _ => None) above ++ map (fun e => Some (overburden layers water (fst e))) (e0 :: below)) /\
    Forall2 nan_eq bots (map (fun _ => None) above ++ map (fun e => Some (overburden layers water (snd e))) (e0 :: below)).
Proof.
  intros l p t b layers d g water x c m P M T B PL S SB BG ND X C MM G W.
  destruct (grid_mesh l p t b (Some layers) x c m P M T B C MM G X) as (top & CH & CB & RG & TP).
  set (pr := primary p b (Some layers) x) in *.
  assert (LP : forall y z, In y layers -> (z == l_top y \/ z == l_bottom y) -> b <= z -> contains pr z).
  { intros y z Hy V L. apply primary_contains. right; left. apply soil_elevations_contains. left. eauto. }
  assert (GP : contains pr g).
  { destruct d as [|y d']; [congruence|]. destruct S as (E & _ & _).
    apply (LP y g); [eapply Permutation_in; [apply Permutation_sym; eauto|left; auto]|left; symmetry; auto|lra]. }
  assert (RE : forall y, contains pr y -> respected (elements_of m) y).
  { intros y Hy. apply (grid_respected p b (Some layers) x c m y); auto. lra. }
  destruct (chain_split (elements_of m) top g CH (RE g GP)) as (above & e0 & below & EQ & AB & CG).
  { apply (RG g GP). } { lra. }
  assert (RL : forall y, In y d -> respected (e0 :: below) (l_bottom y)).
  { intros y Hy. apply (chain_member_sub above). rewrite <- EQ.
    destruct (Qlt_le_dec (l_bottom y) b) as [L|L].
    - apply (respected_out top); [auto|]. right. lra.
    - apply RE. apply (LP y); auto; [eapply Permutation_in; [apply Permutation_sym; eauto|auto]|right; reflexivity]. }
  assert (RW : respected (e0 :: below) water).
  { apply (chain_member_sub above). rewrite <- EQ. destruct W as [W|[W|W]]; [apply RE; auto| |].
    - apply (respected_out top); [auto|]. left. apply W; auto.
    - apply (respected_out top); [auto|]. right. rewrite CB. apply W.
      destruct (pile_bottom_in p b B) as (sb & Hsb & Eb).
      apply primary_contains. left. apply pile_elevations_contains. exists sb. rewrite Eb. split; auto. right; reflexivity. }
  destruct (stress_is_overburden layers d g water above e0 below PL S AB CG) as (tops & bots & ST & TT & BB); auto.
  { intros e He. assert (I : In e (elements_of m)) by (rewrite EQ; apply in_or_app; right; auto).
    pose proof (chain_range _ _ _ CH I). lra. }
  exists above, e0, below, tops, bots. rewrite EQ at 1. repeat split; auto; try apply CG. rewrite EQ; auto.
Qed.

Lemma model_tiled : forall l p t b s x c m, proper l -> make_pile l = Ok p -> pile_top p = Ok t -> pile_bottom p = Ok b ->
  0.01 <= c -> mesh p b s x c = Some m -> (forall y, contains (primary p b s x) y -> on_grid y) ->
  (forall ls y, s = Some ls -> In y ls -> l_top y <= t /\ l_bottom y <= t) -> (forall y, In y x -> b <= y /\ y <= t) ->
  chain t (elements_of m) /\ chain_bottom t (elements_of m) == b /\
  (forall q, In q p -> respected (elements_of m) (s_top q) /\ respected (elements_of m) (s_bottom q)) /\
  (forall ls y, s = Some ls -> In y ls -> respected (elements_of m) (l_top y) /\ respected (elements_of m) (l_bottom y)) /\
  (forall water, water_meshed (primary p b s x) water -> respected (elements_of m) water).
Proof.
  intros l p t b s x c m P M T B C MM G SO X.
  destruct (grid_mesh l p t b s x c m P M T B C MM G) as (top & CH & CB & RG & TP).
  { intros y Hy. apply X; auto. }
  destruct (pile_top_in p t T) as (st & Hst & Et). destruct (pile_bottom_in p b B) as (sb & Hsb & Eb).
  assert (HT : contains (primary p b s x) t).
  { apply primary_contains. left. apply pile_elevations_contains. exists st. rewrite Et. split; auto. left; reflexivity. }
  assert (HB : contains (primary p b s x) b).
  { apply primary_contains. left. apply pile_elevations_contains. exists sb. rewrite Eb. split; auto. right; reflexivity. }
  assert (TT : top == t).
  { pose proof (proj1 (RG t HT)). assert (top <= t); [|lra].
    apply primary_contains in TP. destruct TP as [Hy|[Hy|Hy]].
    - apply pile_elevations_contains in Hy. destruct Hy as (s1 & Hs & V).
      pose proof (pile_range l p t b P M T B s1 Hs).
      assert (s_bottom s1 < s_top s1).
      { destruct (pile_fills l p P M) as (PM & _). apply P. eapply Permutation_in; [apply Permutation_sym; eauto|auto]. }
      destruct V; lra.
    - destruct s as [ls|]; [|destruct (contains_nil _ Hy)].
      apply soil_elevations_contains in Hy. destruct Hy as [(k & Hk & V & L)|(E & _)].
      + destruct (SO ls k eq_refl Hk). destruct V; lra.
      + pose proof (proj2 (RG t HT)). lra.
    - destruct Hy as (z & Hz & E). destruct (X z Hz). lra. }
  assert (CH' : chain t (elements_of m)).
  { destruct (elements_of m) as [|e es]; simpl in *; auto. destruct CH as (E & R). split; auto. lra. }
  assert (CB' : chain_bottom t (elements_of m) == b).
  { destruct (elements_of m) as [|e es]; simpl in *; auto. lra. }
  assert (RE : forall y, contains (primary p b s x) y -> respected (elements_of m) y).
  { intros y Hy. apply (grid_respected p b s x c m y); auto. lra. }
  split; auto. split; auto. split; [|split].
  - intros q Hq. split; apply RE, primary_contains; left; apply pile_elevations_contains; exists q; split; auto; [left|right]; reflexivity.
  - intros ls y -> Hy.
    assert (K : forall z, (z == l_top y \/ z == l_bottom y) -> respected (elements_of m) z).
    { intros z V. destruct (Qlt_le_dec z b) as [L|L].
      - apply (respected_out t); [auto|]. right. lra.
      - apply RE, primary_contains. right; left. apply soil_elevations_contains. left. eauto. }
    split; apply K; [left|right]; reflexivity.
  - intros water [W|[W|W]]; [auto| |].
    + apply (respected_out t); [auto|]. left. auto.
    + apply (respected_out t); [auto|]. right. rewrite CB'. auto.
Qed.

Lemma model_pile_weight : forall l p t b s x c m uw water,
  proper l -> make_pile l = Ok p -> pile_top p = Ok t -> pile_bottom p = Ok b ->
  0.01 <= c -> mesh p b s x c = Some m -> (forall y, contains (primary p b s x) y -> on_grid y) ->
  (forall ls y, s = Some ls -> In y ls -> l_top y <= t /\ l_bottom y <= t) -> (forall y, In y x -> b <= y /\ y <= t) ->
  water_meshed (primary p b s x) water ->
  (exists v, n_sum (volumes s_area p (elements_of m)) = Some v /\ v == pile_volume p) /\
  exists w, effective_pile_weight uw water p (elements_of m) = Some w /\
    w == Qsum (map (fun q => s_area q * (uw * height (Qmax (s_bottom q) water) (s_top q)
                                         + (uw - 10) * height (s_bottom q) (Qmin (s_top q) water))) l).
Proof.
  intros l p t b s x c m uw water P M T B C MM G SO X W.
  destruct (model_tiled l p t b s x c m P M T B C MM G SO X) as (CH & CB & RS & RL & RW).
  split; [eapply pile_volume_elements; eauto|eapply pile_weight_elements; eauto].
Qed.

Lemma model_entrapped_weight : forall l p t b layers d g x c m water,
  proper l -> make_pile l = Ok p -> pile_top p = Ok t -> pile_bottom p = Ok b ->
  Permutation layers d -> exact_stack g d -> g <= t ->
  0.01 <= c -> mesh p b (Some layers) x c = Some m -> (forall y, contains (primary p b (Some layers) x) y -> on_grid y) ->
  (forall y, In y x -> b <= y /\ y <= t) -> water_meshed (primary p b (Some layers) x) water ->
  exists w, entrapped_soil_weight water p layers (elements_of m) = Some w /\
    w == Qsum (map (fun q => Qsum (map (fun y => s_entrapped q *
           (l_weight y * overlap_dry water q y + (l_weight y - 10) * overlap_wet water q y)) layers)) l).
Proof.
  intros l p t b layers d g x c m water P M T B PL S GT C MM G X W.
  assert (SO : forall ls y, Some layers = Some ls -> In y ls -> l_top y <= t /\ l_bottom y <= t).
  { intros ls y E Hy. inversion E; subst ls.
    assert (Hd : In y d) by (eapply Permutation_in; eauto).
    pose proof (exact_tops _ _ _ S Hd).
    assert (l_bottom y < l_top y).
    { clear - S Hd. revert g S. induction d as [|h q IH]; intros g S; [destruct Hd|]. destruct S as (A & B & S).
      destruct Hd as [<-|Hd]; eauto. }
    lra. }
  destruct (model_tiled l p t b (Some layers) x c m P M T B C MM G SO X) as (CH & CB & RS & RL & RW).
  eapply entrapped_weight; eauto.
  intros y Hy. apply (RL layers y eq_refl). eapply Permutation_in; [apply Permutation_sym; eauto|auto].
Qed.

(** ** tip stress *)

Lemma tip_layer_ok : forall tip water mud l, l_bottom l < l_top l -> (tip <= l_bottom l \/ l_bottom l < water \/ l_top l <= tip) ->
  tip_layer_stress tip water mud l == mud + overburden [l] water tip.
Proof.
  intros tip water mud l P H. unfold tip_layer_stress, overburden, dry_above, wet_above. cbn [map]. rewrite Qsum_cons.
  change (Qsum []) with 0.
  destruct (Qle_bool tip (l_bottom l)) eqn:E1; [apply Qleb_true in E1|apply Qleb_false in E1].
  - assert (X : Qmax tip (l_bottom l) == l_bottom l) by (apply Q.max_r; auto).
    destruct (Qle_bool water (l_bottom l)) eqn:E2; [apply Qleb_true in E2|apply Qleb_false in E2].
    + assert (Y : Qmax (Qmax tip (l_bottom l)) water == l_bottom l) by (rewrite X; apply Q.max_l; auto).
      assert (Z : Qmin (l_top l) water == water) by (apply Q.min_r; lra).
      rewrite (height_comp _ _ _ _ Y (Qeq_refl (l_top l))), (height_comp _ _ _ _ X Z), height_pos, height_zero by lra. ring.
    + assert (Y : Qmax (Qmax tip (l_bottom l)) water == water) by (rewrite X; apply Q.max_r; lra).
      destruct (Qltb water (l_top l)) eqn:E3; [apply Qltb_true in E3|apply Qltb_false in E3].
      * assert (Z : Qmin (l_top l) water == water) by (apply Q.min_r; lra).
        rewrite (height_comp _ _ _ _ Y (Qeq_refl (l_top l))), (height_comp _ _ _ _ X Z), !height_pos by lra.
        field. lra.
      * assert (Z : Qmin (l_top l) water == l_top l) by (apply Q.min_l; lra).
        rewrite (height_comp _ _ _ _ Y (Qeq_refl (l_top l))), (height_comp _ _ _ _ X Z), (height_zero water), height_pos by lra. ring.
  - assert (X : Qmax tip (l_bottom l) == tip) by (apply Q.max_l; lra).
    destruct (Qltb tip (l_top l)) eqn:E2; [apply Qltb_true in E2|apply Qltb_false in E2]; cbn [andb].
    + destruct (Qltb (l_bottom l) water) eqn:E3; [apply Qltb_true in E3|apply Qltb_false in E3; exfalso; lra].
      destruct (Qle_bool water tip) eqn:E4; [apply Qleb_true in E4|apply Qleb_false in E4].
      * assert (Y : Qmax (Qmax tip (l_bottom l)) water == tip) by (rewrite X; apply Q.max_l; auto).
        assert (Z : Qmin (l_top l) water == water) by (apply Q.min_r; lra).
        rewrite (height_comp _ _ _ _ Y (Qeq_refl (l_top l))), (height_comp _ _ _ _ X Z), height_pos, height_zero by lra. ring.
      * assert (Y : Qmax (Qmax tip (l_bottom l)) water == water) by (rewrite X; apply Q.max_r; lra).
        destruct (Qltb water (l_top l)) eqn:E5; [apply Qltb_true in E5|apply Qltb_false in E5].
        -- assert (Z : Qmin (l_top l) water == water) by (apply Q.min_r; lra).
           rewrite (height_comp _ _ _ _ Y (Qeq_refl (l_top l))), (height_comp _ _ _ _ X Z), !height_pos by lra.
           field. lra.
        -- assert (Z : Qmin (l_top l) water == l_top l) by (apply Q.min_l; lra).
           rewrite (height_comp _ _ _ _ Y (Qeq_refl (l_top l))), (height_comp _ _ _ _ X Z), (height_zero water), height_pos by lra. ring.
    + pose proof (Q.le_max_l (Qmax tip (l_bottom l)) water). pose proof (Q.le_max_l tip (l_bottom l)).
      pose proof (Q.le_min_l (l_top l) water).
      rewrite !height_zero by lra. ring.
Qed.

(** only the highest layer counts *)
Lemma tip_first_layer : forall tip water mud layers d g l t, Permutation layers d -> exact_stack g d -> d = l :: t ->
  tip_sig_v_eff tip water mud layers = Some (tip_layer_stress tip water mud l).
Proof.
  intros tip water mud layers d g l t PL S ->. unfold tip_sig_v_eff.
  assert (E : sort_by (fun y => - l_top y) layers = l :: t); [|rewrite E; reflexivity].
  symmetry. apply (strict_sorted_unique (fun y => - l_top y)).
  - clear PL. revert g l S. induction t as [|h t IH]; intros g l S.
    + repeat constructor.
    + destruct S as (A & B & S). constructor; [eapply IH; eauto|].
      apply Forall_forall. intros y Hy. pose proof (exact_tops _ _ _ S Hy). lra.
  - apply sort_sorted.
  - eapply Permutation_trans; [apply Permutation_sym; eauto|apply sort_perm].
Qed.

(** ** The same, with hypotheses about the requested elevations only *)

Lemma four_on_grid : forall y, four_decimals y -> on_grid y.
Proof.
  intros y [k E]. unfold on_grid, round4. rewrite (rint_comp (y * 10000) (inject_Z k)).
  - rewrite rint_int. symmetry; auto.
  - rewrite E. field.
Qed.

Lemma on_grid_four : forall y, on_grid y -> four_decimals y.
Proof. intros y E. exists (rint (y * 10000)). symmetry. exact E. Qed.

Lemma primary_is_requested : forall p b s x y, pile_bottom p = Ok b -> contains (primary p b s x) y -> requested p b s x y.
Proof.
  intros p b s x y B H. apply primary_requested in H. destruct H as [H|(E & _)]; auto.
  left. unfold pile_bottom in B. destruct (last_section p) as [q|] eqn:L; [|discriminate].
  simpl in B. inversion B; subst b. exists q. split; [|right; auto].
  clear - L. induction p as [|h t IH]; [discriminate|]. destruct t as [|h' t].
  - inversion L. left; auto.
  - right. apply IH. rewrite <- L. symmetry. apply last_section_cons.
Qed.

Lemma grid_hyp : forall p b s x, pile_bottom p = Ok b -> (forall y, requested p b s x y -> four_decimals y) ->
  forall y, contains (primary p b s x) y -> on_grid y.
Proof. intros. apply four_on_grid. apply H0. apply primary_is_requested; auto. Qed.

Lemma water_hyp : forall p b s x w, pile_bottom p = Ok b -> water_at (requested p b s x) w -> water_meshed (primary p b s x) w.
Proof.
  intros p b s x w B [H|[H|H]].
  - left. apply primary_requested. auto.
  - right; left. intros. apply H. apply primary_is_requested; auto.
  - right; right. intros. apply H. apply primary_is_requested; auto.
Qed.

Lemma requested_stress : forall l p b layers d g water x c m,
  proper l -> make_pile l = Ok p -> pile_bottom p = Ok b ->
  Permutation layers d -> exact_stack g d -> stack_bottom g d <= b -> b < g -> d <> [] ->
  (forall y, In y x -> b <= y) -> 0.01 <= c -> mesh p b (Some layers) x c = Some m ->
  (forall y, requested p b (Some layers) x y -> four_decimals y) ->
  water_at (requested p b (Some layers) x) water ->
  exists above e0 below tops bots, elements_of m = above ++ e0 :: below /\
    (forall e, In e above -> g < fst e) /\ chain g (e0 :: below) /\
    stress layers g water (elements_of m) = Ok (tops, bots) /\
    Forall2 nan_eq tops (map (fun _ => None) above ++ map (fun e => Some (overburden layers water (fst e))) (e0 :: below)) /\
    Forall2 nan_eq bots (map (fun _ => None) above ++ map (fun e => Some (overburden layers water (snd e))) (e0 :: below)).
Proof.
  intros l p b layers d g water x c m P M B PL S SB BG ND X C MM G W.
  destruct (pile_top p) as [t|] eqn:T.
  2:{ destruct p; [discriminate B|discriminate T]. }
  eapply model_stress; eauto; [eapply grid_hyp; eauto|eapply water_hyp; eauto].
Qed.

Lemma requested_pile_weight : forall l p t b s x c m uw water,
  proper l -> make_pile l = Ok p -> pile_top p = Ok t -> pile_bottom p = Ok b ->
  0.01 <= c -> mesh p b s x c = Some m -> (forall y, requested p b s x y -> four_decimals y) ->
  (forall ls y, s = Some ls -> In y ls -> l_top y <= t /\ l_bottom y <= t) -> (forall y, In y x -> b <= y /\ y <= t) ->
  water_at (requested p b s x) water ->
  (exists v, n_sum (volumes s_area p (elements_of m)) = Some v /\ v == pile_volume p) /\
  exists w, effective_pile_weight uw water p (elements_of m) = Some w /\
    w == Qsum (map (fun q => s_area q * (uw * height (Qmax (s_bottom q) water) (s_top q)
                                         + (uw - 10) * height (s_bottom q) (Qmin (s_top q) water))) l).
Proof.
  intros. eapply model_pile_weight; eauto; [eapply grid_hyp; eauto|eapply water_hyp; eauto].
Qed.

Lemma requested_entrapped_weight : forall l p t b layers d g x c m water,
  proper l -> make_pile l = Ok p -> pile_top p = Ok t -> pile_bottom p = Ok b ->
  Permutation layers d -> exact_stack g d -> g <= t ->
  0.01 <= c -> mesh p b (Some layers) x c = Some m -> (forall y, requested p b (Some layers) x y -> four_decimals y) ->
  (forall y, In y x -> b <= y /\ y <= t) -> water_at (requested p b (Some layers) x) water ->
  exists w, entrapped_soil_weight water p layers (elements_of m) = Some w /\
    w == Qsum (map (fun q => Qsum (map (fun y => s_entrapped q *
           (l_weight y * overlap_dry water q y + (l_weight y - 10) * overlap_wet water q y)) layers)) l).
Proof.
  intros. eapply model_entrapped_weight; eauto; [eapply grid_hyp; eauto|eapply water_hyp; eauto].
Qed.
