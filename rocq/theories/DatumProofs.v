(** Elevations measured from another datum: pile, profile, mesh and stresses. *)
From Coq Require Import List Bool Arith ZArith QArith Qabs Qround Qminmax Reals Qreals Lia Lqa FunctionalExtensionality.
From Verif Require Import Base LinAlg BCModel PileModel MeshModel MeshProofs StressModel BeamModel SolveModel SpringModel SpringProper CreateModel WholeModel
  AxialModel LateralModel CapacityModel FullModel SplitSpec SplitProofs DatumSpec.
Import ListNotations.
Local Open Scope Q_scope.

Lemma leb_up : forall d a a' b b', up d a a' -> up d b b' -> Qle_bool a' b' = Qle_bool a b.
Proof.
  unfold up. intros d a a' b b' A B. destruct (Qle_bool a b) eqn:E.
  - apply Qleb_true in E. apply Qleb_true. lra.
  - apply Qleb_false in E. apply Qleb_false. lra.
Qed.
Lemma ltb_up : forall d a a' b b', up d a a' -> up d b b' -> Qltb a' b' = Qltb a b.
Proof. intros. unfold Qltb. erewrite leb_up; eauto. Qed.
Lemma eqb_up : forall d a a' b b', up d a a' -> up d b b' -> Qeq_bool a' b' = Qeq_bool a b.
Proof.
  unfold up. intros d a a' b b' A B. destruct (Qeq_bool a b) eqn:E.
  - apply Qeqb_true in E. apply Qeqb_true. lra.
  - apply Qeqb_false in E. apply Qeqb_false. intros F. apply E. lra.
Qed.
Lemma up_refl : forall d a, up d a (a + d). Proof. intros. unfold up. reflexivity. Qed.
Local Hint Resolve up_refl : core.

(** ** Sorting *)
Lemma insert_map : forall {A B : Type} (f : A -> B) key key' (x : A) l,
  (forall y, In y l -> Qle_bool (key' (f x)) (key' (f y)) = Qle_bool (key x) (key y)) -> insert_by key' (f x) (map f l) = map f (insert_by key x l).
Proof.
  intros A B f key key' x l. induction l as [|h t IH]; intros H; cbn [insert_by map]; [reflexivity|]. rewrite (H h (or_introl eq_refl)).
  destruct (Qle_bool (key x) (key h)); [reflexivity|]. cbn [map]. rewrite IH; [reflexivity|]. intros y I. apply H. right. exact I.
Qed.
Lemma insert_in : forall {A : Type} (key : A -> Q) (x : A) l y, In y (insert_by key x l) -> y = x \/ In y l.
Proof.
  intros A key x l y. induction l as [|h t IH]; cbn [insert_by]; intros I.
  - destruct I as [I|[]]. auto.
  - destruct (Qle_bool (key x) (key h)).
    + destruct I as [I|I]; auto.
    + destruct I as [I|I]; [right; left; exact I|]. destruct (IH I); auto. right. right. assumption.
Qed.
Lemma sort_in : forall {A : Type} (key : A -> Q) l y, In y (sort_by key l) -> In y l.
Proof. intros A key l y. induction l as [|h t IH]; cbn [sort_by]; intros I; [exact I|]. destruct (insert_in _ _ _ _ I); [left; auto|right; auto]. Qed.
Lemma sort_map : forall {A B : Type} (f : A -> B) key key' l,
  (forall x y, Qle_bool (key' (f x)) (key' (f y)) = Qle_bool (key x) (key y)) -> sort_by key' (map f l) = map f (sort_by key l).
Proof. intros A B f key key' l H. induction l as [|h t IH]; cbn [sort_by map]; [reflexivity|]. rewrite IH. apply insert_map. intros y _. apply H. Qed.

(** ** Pile *)
Section Datum.
Variable d : Q.
Notation rs := (raise_section d).
Notation rl := (raise_layer d).

Lemma up_top : forall s, up d (s_top s) (s_top (rs s)). Proof using. intros s. apply up_refl. Qed.
Lemma up_bottom : forall s, up d (s_bottom s) (s_bottom (rs s)). Proof using. intros s. apply up_refl. Qed.
Lemma up_ltop : forall s, up d (l_top s) (l_top (rl s)). Proof using. intros s. apply up_refl. Qed.
Lemma up_lbottom : forall s, up d (l_bottom s) (l_bottom (rl s)). Proof using. intros s. apply up_refl. Qed.

Lemma connected_up : forall l, connected (map rs l) = connected l.
Proof using.
  induction l as [|a t IH]; [reflexivity|]. destruct t as [|b t]; [reflexivity|].
  change (Qeq_bool (s_top (rs b)) (s_bottom (rs a)) && connected (map rs (b :: t)) = Qeq_bool (s_top b) (s_bottom a) && connected (b :: t)).
  rewrite IH, (eqb_up d _ _ _ _ (up_top b) (up_bottom a)). reflexivity.
Qed.
Lemma pile_up : forall l, make_pile (map rs l) = match make_pile l with Ok p => Ok (map rs p) | Err e => Err e end.
Proof using.
  intros l. unfold make_pile. rewrite map_length. destruct (Nat.eqb (length l) 0); [reflexivity|].
  rewrite (sort_map rs (fun x => - s_top x) (fun x => - s_top x)).
  - rewrite connected_up. destruct (connected _); reflexivity.
  - intros x y. cbn [raise_section s_top]. destruct (Qle_bool (- s_top x) (- s_top y)) eqn:E; [apply Qleb_true in E; apply Qleb_true|apply Qleb_false in E; apply Qleb_false]; lra.
Qed.
Lemma last_up : forall p, last_section (map rs p) = match last_section p with Ok s => Ok (rs s) | Err e => Err e end.
Proof using. intros p. unfold last_section. rewrite <- map_rev. destruct (rev p); reflexivity. Qed.
Lemma pile_bottom_up : forall p, match pile_bottom p, pile_bottom (map rs p) with Ok b, Ok b' => b' = b + d | Err e, Err e' => e = e' | _, _ => False end.
Proof using. intros p. unfold pile_bottom. rewrite last_up. destruct (last_section p); reflexivity. Qed.
Lemma pile_length_up : forall p, match pile_length p, pile_length (map rs p) with Ok b, Ok b' => b' == b | Err e, Err e' => e = e' | _, _ => False end.
Proof using.
  intros p. unfold pile_length, pile_top. destruct p as [|s t]; [reflexivity|]. cbn [map bind]. pose proof (pile_bottom_up (s :: t)) as H. cbn [map] in H.
  destruct (pile_bottom (s :: t)), (pile_bottom (rs s :: map rs t)); cbn [bind]; try contradiction; auto. subst. cbn [raise_section s_top]. lra.
Qed.
Lemma tip_area_up : forall p, tip_area (map rs p) = tip_area p /\ tip_footprint (map rs p) = tip_footprint p.
Proof using. intros p. unfold tip_area, tip_footprint. rewrite last_up. destruct (last_section p); split; reflexivity. Qed.

(** ** Profile *)
Lemma near_up : forall a b, within d [a; b] -> m_isclose (l_top (rl b)) (l_bottom (rl a)) = m_isclose (l_top b) (l_bottom a).
Proof using.
  intros a b W. destruct (W a) as (A1 & A2 & A3 & A4); [left; reflexivity|]. destruct (W b) as (B1 & B2 & B3 & B4); [right; left; reflexivity|].
  unfold m_isclose. cbn [raise_layer l_top l_bottom].
  assert (G : forall u v, Qabs u <= 1000000 -> Qabs v <= 1000000 -> Qmax ((1 # 1000000000) * Qmax (Qabs u) (Qabs v)) 0.001 == 0.001).
  { intros u v U V. apply Q.max_r. destruct (Q.max_spec (Qabs u) (Qabs v)) as [[_ E]|[_ E]]; rewrite E; lra. }
  rewrite (G _ _ B1 A2), (G _ _ B3 A4). assert (E : l_top b + d - (l_bottom a + d) == l_top b - l_bottom a) by lra. rewrite E. reflexivity.
Qed.
Lemma stacked_up : forall l, within d l -> PileModel.stacked (map rl l) = PileModel.stacked l.
Proof using.
  induction l as [|a t IH]; intros W; [reflexivity|]. destruct t as [|b t]; [reflexivity|].
  change (m_isclose (l_top (rl b)) (l_bottom (rl a)) && PileModel.stacked (map rl (b :: t)) = m_isclose (l_top b) (l_bottom a) && PileModel.stacked (b :: t)).
  rewrite IH, near_up; [reflexivity| |].
  - intros l [I|[I|[]]]; apply W; [left|right; left]; exact I.
  - intros l I. apply W. right. exact I.
Qed.
Lemma down_up : forall l, layers_down (map rl l) = map rl (layers_down l).
Proof using. intros l. unfold layers_down. rewrite (sort_map rl l_top l_top); [symmetry; apply map_rev|]. intros x y. apply (leb_up d); apply up_ltop. Qed.
Lemma profile_up : forall g l, within d l -> make_profile (g + d) (map rl l) = match make_profile g l with Ok _ => Ok (map rl l) | Err e => Err e end.
Proof using.
  intros g l W. unfold make_profile. rewrite down_up.
  assert (W2 : within d (layers_down l)) by (intros y I; apply W; unfold layers_down in I; apply in_rev in I; exact (sort_in _ _ _ I)).
  destruct (layers_down l) as [|a t] eqn:E; [reflexivity|]. cbn [map]. rewrite (eqb_up d _ _ _ _ (up_ltop a) (up_refl d g)). destruct (Qeq_bool (l_top a) g); [|reflexivity]. cbn [negb].
  change (rl a :: map rl t) with (map rl (a :: t)). rewrite (stacked_up _ W2). destruct (PileModel.stacked (a :: t)); reflexivity.
Qed.
Lemma profile_bottom_up : forall g l, up d (profile_bottom g l) (profile_bottom (g + d) (map rl l)).
Proof using.
  intros g l. unfold up, profile_bottom. rewrite map_map.
  assert (E : Qsum (map (fun x => Qabs (l_top (rl x) - l_bottom (rl x))) l) == Qsum (map (fun x => Qabs (l_top x - l_bottom x)) l)).
  { unfold Qsum. induction l as [|h t IH]; cbn [map fold_right]; [reflexivity|]. rewrite IH. cbn [raise_layer l_top l_bottom]. assert (E : l_top h + d - (l_bottom h + d) == l_top h - l_bottom h) by lra. rewrite E. reflexivity. }
  rewrite E. lra.
Qed.
Lemma accept_up : forall len len' c b b' s s', len' == len -> up d b b' -> up d s s' -> accept_model len' c b' (Some s') = accept_model len c b (Some s) /\ accept_model len' c b' None = accept_model len c b None.
Proof using. intros len len' c b b' s s' L B S0. unfold accept_model. rewrite L, (ltb_up d _ _ _ _ B S0). split; reflexivity. Qed.

(** ** Mesh *)
Notation ups := (Forall2 (up d)).
Lemma ups_map : forall A (f : A -> Q) (g : A -> Q) l, (forall x, up d (f x) (g x)) -> ups (map f l) (map g l).
Proof using. intros A f g l H. induction l; cbn [map]; constructor; auto. Qed.
Lemma pile_elevations_up : forall p, ups (pile_elevations p) (pile_elevations (map rs p)).
Proof using. intros p. unfold pile_elevations. induction p as [|s t IH]; cbn [map flat_map app]; [constructor|]. repeat constructor. exact IH. Qed.
Lemma exists_up : forall b b' l l', up d b b' -> ups l l' -> existsb (fun x => Qltb x b') l' = existsb (fun x => Qltb x b) l.
Proof using. intros b b' l l' B F. induction F as [|x x' t t' E F IH]; cbn [existsb]; [reflexivity|]. rewrite IH, (ltb_up d _ _ _ _ E B). reflexivity. Qed.
Lemma filter_up : forall b b' l l', up d b b' -> ups l l' -> ups (filter (fun x => Qle_bool b x) l) (filter (fun x => Qle_bool b' x) l').
Proof using. intros b b' l l' B F. induction F as [|x x' t t' E F IH]; cbn [filter]; [constructor|]. rewrite (leb_up d _ _ _ _ B E). destruct (Qle_bool b x); [constructor|]; auto. Qed.
Lemma soil_elevations_up : forall b b' ls, up d b b' -> ups (soil_elevations b ls) (soil_elevations b' (map rl ls)).
Proof using.
  intros b b' ls B. unfold soil_elevations. rewrite !map_map.
  assert (F : ups (map l_top ls ++ map l_bottom ls) (map (fun x => l_top (rl x)) ls ++ map (fun x => l_bottom (rl x)) ls)).
  { apply Forall2_app; apply ups_map; intros; apply up_refl. }
  rewrite (exists_up _ _ _ _ B F). destruct (existsb _ _); [|exact F]. apply filter_up; [exact B|]. constructor; auto.
Qed.
Lemma uinsert_up : forall x x' l l', up d x x' -> ups l l' -> ups (uinsert x l) (uinsert x' l').
Proof using.
  intros x x' l l' X F. induction F as [|h h' t t' E F IH]; cbn [uinsert]; [constructor; [exact X|constructor]|].
  rewrite (eqb_up d _ _ _ _ X E), (ltb_up d _ _ _ _ E X). destruct (Qeq_bool x h); [constructor; auto|]. destruct (Qltb h x); constructor; auto.
Qed.
Lemma unique_up : forall l l', ups l l' -> ups (unique_desc l) (unique_desc l').
Proof using. intros l l' F. unfold unique_desc. induction F as [|h h' t t' E F IH]; cbn [fold_right]; [constructor|]. apply uinsert_up; auto. Qed.
Lemma subdivide_up : forall a a' s s' n, up d a a' -> s == s' -> ups (subdivide a s n) (subdivide a' s' n).
Proof using. intros a a' s s' n A S0. unfold subdivide. induction (seq 1 (n - 1)) as [|k t IH]; cbn [map]; constructor; auto. unfold up in *. rewrite A, S0. lra. Qed.
Lemma secondary_up : forall c z z', ups z z' -> both_or_none ups (secondary z c) (secondary z' c).
Proof using.
  intros c z z' F. induction F as [|a a' t t' E F IH]; [cbn; constructor|]. destruct F as [|b b' t t' E' F]; [cbn; constructor|].
  rewrite !secondary_cons2. assert (S0 : a - b == a' - b') by (unfold up in *; lra). rewrite (divider_comp (a - b) (a' - b') c) by exact S0. destruct (divider (a' - b') c); [|exact Logic.I].
  destruct (secondary (b :: t) c), (secondary (b' :: t') c); try contradiction; auto. apply Forall2_app; [apply subdivide_up; [exact E|exact S0]|exact IH].
Qed.
Lemma mesh_up : forall p b b' soil x c, up d b b' -> both_or_none ups (mesh p b soil x c) (mesh (map rs p) b' (option_map (map rl) soil) (map (fun z => z + d) x) c).
Proof using.
  intros p b b' soil x c B. unfold mesh.
  assert (F : ups (primary p b soil x) (primary (map rs p) b' (option_map (map rl) soil) (map (fun z => z + d) x))).
  { unfold primary. apply unique_up. apply Forall2_app; [apply pile_elevations_up|]. apply Forall2_app.
    - destruct soil; cbn [option_map]; [apply soil_elevations_up; exact B|constructor].
    - rewrite <- (map_id x) at 1. apply ups_map. intros z. apply up_refl. }
  pose proof (secondary_up c _ _ F) as G. destruct (secondary (primary p b soil x) c), (secondary (primary (map rs p) b' (option_map (map rl) soil) (map (fun z => z + d) x)) c); try contradiction; auto.
  cbn [both_or_none] in G. cbn [both_or_none]. apply unique_up. apply Forall2_app; auto.
Qed.

(** ** Rounded elevations *)
Lemma rint_move : forall q q' k, q' == q + inject_Z k -> (Z.even k = true \/ ~ exists j, q == inject_Z j + (1#2)) -> rint q' = (rint q + k)%Z.
Proof using.
  clear d. intros q q' k E H. unfold rint. assert (F : Qfloor q' = (Qfloor q + k)%Z).
  { pose proof (Qfloor_le q). pose proof (Qlt_floor q). pose proof (Qfloor_le q'). pose proof (Qlt_floor q'). rewrite inject_Z_plus in *.
    assert (A : inject_Z (Qfloor q') < inject_Z (Qfloor q + k + 1)) by (rewrite !inject_Z_plus; lra).
    assert (B : inject_Z (Qfloor q + k) < inject_Z (Qfloor q' + 1)) by (rewrite !inject_Z_plus; lra).
    rewrite <- Zlt_Qlt in A, B. lia. }
  rewrite F. assert (R : q' - inject_Z (Qfloor q + k) == q - inject_Z (Qfloor q)) by (rewrite inject_Z_plus; lra).
  assert (B1 : Qltb (q' - inject_Z (Qfloor q + k)) (1#2) = Qltb (q - inject_Z (Qfloor q)) (1#2)) by (unfold Qltb; rewrite R; reflexivity).
  assert (B2 : Qltb (1#2) (q' - inject_Z (Qfloor q + k)) = Qltb (1#2) (q - inject_Z (Qfloor q))) by (unfold Qltb; rewrite R; reflexivity).
  rewrite B1, B2. destruct (Qltb (q - inject_Z (Qfloor q)) (1#2)) eqn:E1; [reflexivity|]. destruct (Qltb (1#2) (q - inject_Z (Qfloor q))) eqn:E2; [lia|].
  destruct H as [H|H].
  - rewrite Z.even_add, H. destruct (Z.even (Qfloor q)); cbn [Bool.eqb]; lia.
  - exfalso. apply H. exists (Qfloor q). apply Qltb_false in E1, E2. lra.
Qed.
End Datum.
