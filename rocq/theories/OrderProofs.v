(** Lemmas: two lists of x2mesh elevations that add the same ones give the same model. *)
From Coq Require Import List Bool Arith ZArith QArith Reals Permutation Lia Lqa.
From Verif Require Import Base LinAlg BeamModel PileModel MeshModel MeshSpec MeshProofs StressModel SpringModel WinklerModel CreateModel WholeModel ResultModel SessionModel SolveModel GetterModel FullModel LiveModel PileSpec PileProofs FewSpec FewProofs OrderSpec.
Import ListNotations.
Local Open Scope Q_scope.

(** Two built models that differ in the unrounded mesh at most *)
Definition same_built (B B' : option built) : Prop :=
  match B, B' with
  | None, None => True
  | Some B, Some B' => b_pile B = b_pile B' /\ nodes_of (b_mesh B) = nodes_of (b_mesh B') /\ elements_of (b_mesh B) = elements_of (b_mesh B') /\
                       b_setting B = b_setting B' /\ b_made B = b_made B'
  | _, _ => False
  end.
Definition same_res (a a' : res (option built)) : Prop :=
  match a, a' with Ok B, Ok B' => same_built B B' | Err e, Err e' => e = e' | _, _ => False end.

Lemma accepted_coarseness : forall len c b s, accept_model len c b s = Ok tt -> 0 < c.
Proof.
  intros len c b s. unfold accept_model. destruct (Qltb c (1#100)) eqn:E; [discriminate|]. intros _. apply Qltb_false in E. lra.
Qed.

Lemma setting_same : forall o p b rows g w ls m m' sg, elements_of m = elements_of m' -> setting_of o p b rows g w ls m sg = setting_of o p b rows g w ls m' sg.
Proof. intros o p b rows g w ls m m' sg E. unfold setting_of. rewrite E. reflexivity. Qed.

Lemma construct_same : forall rnd ch sort o sections ground water ys x x' c,
  (forall p b ls, make_pile sections = Ok p -> pile_bottom p = Ok b -> make_profile ground (map y_layer ys) = Ok ls ->
     forall y, wanted p b (Some ls) x y <-> wanted p b (Some ls) x' y) ->
  same_res (construct rnd ch sort o sections ground water ys x c) (construct rnd ch sort o sections ground water ys x' c).
Proof.
  intros rnd ch sort o sections ground water ys x x' c W. unfold construct.
  destruct (make_pile sections) as [p|e] eqn:EP; [|reflexivity]. cbn [bind].
  destruct (make_profile ground (map y_layer ys)) as [ls|e] eqn:EL; [|reflexivity]. cbn [bind].
  destruct (pile_length p) as [len|e]; [|reflexivity]. cbn [bind].
  destruct (pile_bottom p) as [b|e] eqn:EB; [|reflexivity]. cbn [bind].
  destruct (accept_model len c b (Some (profile_bottom ground ls))) as [[]|e] eqn:EA; [|reflexivity]. cbn [bind].
  pose proof (accepted_coarseness _ _ _ _ EA) as C.
  destruct (mesh_exists p b (Some ls) x c C) as [m M]. destruct (mesh_exists p b (Some ls) x' c C) as [m' M']. rewrite M, M'.
  destruct (mesh_set p b (Some ls) x c m p b (Some ls) x' m' C (W p b ls eq_refl EB eq_refl) M M') as (_ & N & E). rewrite <- E.
  destruct (stress ls ground water (elements_of m)) as [sg|e]; [|reflexivity]. cbn [bind].
  destruct (tip_area p) as [ta|e]; [|reflexivity]. cbn [bind]. destruct (tip_footprint p) as [fp|e]; [|reflexivity]. cbn [bind]. cbv zeta.
  rewrite (setting_same o p b (sort (data_rows p)) ground water ls m' m sg (eq_sym E)).
  destruct (make_springs _ _) as [Mm|e]; [|reflexivity]. cbn [bind same_res same_built b_pile b_mesh b_setting b_made]. auto.
Qed.

Lemma analysis_same : forall rnd ch sort solve ty circ E nu o sections ground water ys x x' c cs k,
  same_res (construct rnd ch sort o sections ground water ys x c) (construct rnd ch sort o sections ground water ys x' c) ->
  soil_analysis rnd ch sort solve ty circ E nu o sections ground water ys x c cs k = soil_analysis rnd ch sort solve ty circ E nu o sections ground water ys x' c cs k.
Proof.
  intros rnd ch sort solve ty circ E nu o sections ground water ys x x' c cs k. unfold soil_analysis.
  destruct (construct rnd ch sort o sections ground water ys x c) as [[[p m st M]|]|e], (construct rnd ch sort o sections ground water ys x' c) as [[[p' m' st' M']|]|e'];
    cbn [same_res same_built b_pile b_mesh b_setting b_made]; try contradiction; [|reflexivity|intros <-; reflexivity].
  intros (<- & N & El & <- & <-). cbn [bind]. unfold solve_built, stiffness_model. cbn [b_pile b_mesh b_setting b_made]. rewrite <- N, <- El. reflexivity.
Qed.

Lemma live_same : forall rnd ch sort solve ty circ E nu o sections ground water ys x x' c prog,
  same_res (construct rnd ch sort o sections ground water ys x c) (construct rnd ch sort o sections ground water ys x' c) ->
  live rnd ch sort solve ty circ E nu o sections ground water ys x c prog = live rnd ch sort solve ty circ E nu o sections ground water ys x' c prog.
Proof.
  intros rnd ch sort solve ty circ E nu o sections ground water ys x x' c prog. unfold live.
  destruct (construct rnd ch sort o sections ground water ys x c) as [[[p m st M]|]|e], (construct rnd ch sort o sections ground water ys x' c) as [[[p' m' st' M']|]|e'];
    cbn [same_res same_built b_pile b_mesh b_setting b_made]; try contradiction; [|reflexivity|intros <-; reflexivity].
  intros (<- & N & El & <- & <-). cbn [bind]. unfold live_frame, live_springs. cbn [b_pile b_mesh b_setting b_made]. rewrite <- N, <- El. reflexivity.
Qed.

Lemma bare_same : forall solve ty circ E nu sections x x' c calls,
  (forall p b, make_pile sections = Ok p -> pile_bottom p = Ok b -> forall y, wanted p b None x y <-> wanted p b None x' y) ->
  analyse solve ty circ E nu sections x c calls = analyse solve ty circ E nu sections x' c calls.
Proof.
  intros solve ty circ E nu sections x x' c calls W. unfold analyse.
  destruct (make_pile sections) as [p|e] eqn:EP; [|reflexivity]. cbn [bind].
  destruct (pile_length p) as [len|e]; [|reflexivity]. cbn [bind].
  destruct (pile_bottom p) as [b|e] eqn:EB; [|reflexivity]. cbn [bind].
  destruct (accept_model len c b None) as [[]|e] eqn:EA; [|reflexivity]. cbn [bind].
  pose proof (accepted_coarseness _ _ _ _ EA) as C.
  destruct (mesh_exists p b None x c C) as [m M]. destruct (mesh_exists p b None x' c C) as [m' M']. rewrite M, M'.
  destruct (mesh_set p b None x c m p b None x' m' C (W p b eq_refl EB) M M') as (_ & N & El).
  unfold beam_tables. rewrite <- N, <- El. reflexivity.
Qed.

(** From the lists in the user's order to the sorted pile *)
Lemma border_requested : forall sections layers p b y x, proper sections -> make_pile sections = Ok p -> pile_bottom p = Ok b ->
  border sections layers y -> wanted p b (Some layers) x y.
Proof.
  intros sections layers p b y x P M B H. destruct (pile_fills _ _ P M) as [PM _].
  destruct (pile_tip _ _ P M) as (s0 & _ & LO & B0 & _). assert (b = s_bottom s0) as -> by congruence. left.
  destruct H as [(s & I & E)|(l & I & E & s & IS & L)].
  - left. exists s. split; [exact (Permutation_in _ PM I)|exact E].
  - right; left. exists layers, l. repeat split; auto. apply Qle_trans with (s_bottom s); auto.
Qed.

Lemma requests_wanted : forall sections layers p b x x', proper sections -> make_pile sections = Ok p -> pile_bottom p = Ok b ->
  same_requests sections layers x x' -> forall y, wanted p b (Some layers) x y -> wanted p b (Some layers) x' y.
Proof.
  intros sections layers p b x x' P M B H y [[W|[W|W]]|W].
  - left; left; exact W.
  - left; right; left; exact W.
  - destruct (proj1 (H y) W) as [C|C]; [left; right; right; exact C|]. eapply border_requested; eauto.
  - right; exact W.
Qed.

Lemma bare_wanted : forall sections p b x x', proper sections -> make_pile sections = Ok p -> pile_bottom p = Ok b ->
  same_requests sections [] x x' -> forall y, wanted p b None x y -> wanted p b None x' y.
Proof.
  intros sections p b x x' P M B H y [[W|[W|W]]|W].
  - left; left; exact W.
  - left; right; left; exact W.
  - destruct (proj1 (H y) W) as [C|[(s & I & E)|(l & [] & _)]]; [left; right; right; exact C|].
    destruct (pile_fills _ _ P M) as [PM _]. left; left. exists s. split; [exact (Permutation_in _ PM I)|exact E].
  - right; exact W.
Qed.

Lemma requests_sym : forall sections layers x x', same_requests sections layers x x' -> same_requests sections layers x' x.
Proof. intros sections layers x x' H y. destruct (H y); split; auto. Qed.

Lemma construct_requests : forall rnd ch sort o sections ground water ys x x' c, proper sections -> same_requests sections (map y_layer ys) x x' ->
  same_res (construct rnd ch sort o sections ground water ys x c) (construct rnd ch sort o sections ground water ys x' c).
Proof.
  intros rnd ch sort o sections ground water ys x x' c P H. apply construct_same. intros p b ls M B L y.
  apply profile_ok in L. destruct L as [-> _]. split; eapply requests_wanted; eauto using requests_sym.
Qed.
