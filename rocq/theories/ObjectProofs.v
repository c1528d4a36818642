(** Lemmas for C140: an exception of a spring function reaches the user. *)
From Coq Require Import List Bool Arith ZArith QArith Qabs Reals Qreals Permutation Lia Lqa Lra.
From Verif Require Import Base PileModel PileSpec PileProofs MeshModel MeshSpec StressModel StressSpec BeamModel CreateModel CreateProofs CreateProps CallProofs AxialModel LateralModel LateralSpec LateralProofs FieldModel CapacityModel FullModel FullSpec SiteProofs ObjectModel.
Import ListNotations.
Local Open Scope Q_scope.

Lemma current_held : forall v d h X, current_value v d h X = at_current_depth (held v) d h X.
Proof. intros [x|[|a [|b [|c l]]]|f|f] d h X; reflexivity. Qed.

Definition is_object (v : pyvalue) : Prop := exists f, v = VObject f.
Definition in_four (f : vfour) : Prop := is_object (v_X f) \/ is_object (v_n f) \/ is_object (v_k f) \/ is_object (v_Y f).

Definition raises_type {A : Type} (r : res A) : Prop := r = Err TypeError.

(** In a layer of some height a parameter is a number or raises TypeError *)
Lemma custom_or : forall p q, (0 < q_height q)%R -> (exists v, custom_value p q = Ok v) \/ custom_value p q = Err TypeError.
Proof.
  intros p q H. unfold custom_value, at_current_depth, in_layer, at_depth, nonzero.
  assert (N : forall A (r : A) (e : A), (if Req_EM_T (q_height q) 0 then e else r) = r) by (intros; destruct (Req_EM_T (q_height q) 0); [exfalso; Lra.lra|reflexivity]).
  destruct p as [x|[|x [|y [|z l]]]|f]; cbn [top_bottom bind fst snd]; try (right; reflexivity); left; eauto.
  all: destruct (Req_EM_T (q_height q) 0); [exfalso; Lra.lra|]; eauto.
Qed.

Lemma object_raises : forall v q, is_object v -> custom_value (held v) q = Err TypeError.
Proof. intros v q (f & ->). reflexivity. Qed.

Lemma four_raises : forall f q k, (0 < q_height q)%R -> in_four f -> with_four (held_four f) q k = Err TypeError.
Proof.
  intros [x n k y] q K H I. unfold with_four, held_four. cbn [f_X f_n f_k f_Y v_X v_n v_k v_Y] in *.
  unfold in_four in I. cbn [v_X v_n v_k v_Y] in I.
  destruct (custom_or (held x) q H) as [(a & EA)|EA]; rewrite EA; cbn [bind]; [|reflexivity].
  destruct (custom_or (held n) q H) as [(b & EB)|EB]; rewrite EB; cbn [bind]; [|reflexivity].
  destruct (custom_or (held k) q H) as [(c & EC)|EC]; rewrite EC; cbn [bind]; [|reflexivity].
  destruct (custom_or (held y) q H) as [(d & ED)|ED]; rewrite ED; cbn [bind]; [|reflexivity].
  exfalso. destruct I as [J|[J|[J|J]]]; pose proof (object_raises _ q J); congruence.
Qed.

(** ** The site *)
(** The site without its soil models: the pile, the mesh and the layers *)
Definition without (y : soil_layer) : soil_layer := mkSL (y_layer y) None None.
Lemma without_layers : forall ys, map y_layer (map without ys) = map y_layer ys.
Proof. intros ys. rewrite map_map. reflexivity. Qed.

Lemma err_none : forall l, first_error l = None -> forall v, In v l -> exists r, v = Ok r.
Proof.
  induction l as [|a l IH]; intros H v J; [destruct J|]. destruct a as [r|e]; cbn [first_error] in H; [|discriminate]. destruct J as [<-|J]; eauto.
Qed.

Section Reach.
Variables (rnd : R -> Q) (ch : chance) (sort : list (Q * section) -> list (Q * section)) (o : options) (sections : list section) (gr wt : Q) (ys : list soil_layer)
  (x : list Q) (c : Q) (p : list section) (t b : Q) (m : list Q).
Hypothesis SO : forall rows, ascending_of (sort rows) rows.
Hypothesis SS : sound_site o sections gr wt (map without ys) x c p t b m.
Notation ls := (map y_layer ys).

(** Every call made for an accepted model has returned *)
Lemma calls_returned : forall B, construct rnd ch sort o sections gr wt ys x c = Ok (Some B) -> forall y md i, In y ys -> y_lat y = Some md -> (i < length (elements_of m))%nat ->
  let e := nth i (elements_of m) (0, 0) in l_bottom (y_layer y) <= snd e -> fst e <= l_top (y_layer y) ->
  exists sg s, In s sections /\ let st := setting_of o p b (sort (data_rows p)) gr wt ls m sg in
  forall j, (j < 2)%nat -> let z := if Nat.eqb j 0 then fst e else snd e in let q := spot ls gr wt b (y_layer y) z (gr - z) (s_width s) in
  (0 < q_height q)%R /\ (q_depth q <= q_height q)%R /\
  let a := shaft_args st (y_layer y) i j in
  (on_py o = true -> nth 0 (spring_signature md) false = true -> exists r, py_spring_fct md (c_py ch md a) q 0 15 = Ok r) /\
  (on_mt o = true -> nth 2 (spring_signature md) false = true -> exists r, mt_spring_fct md (fst (c_mt ch md a)) (snd (c_mt ch md a)) q 0 15 = Ok r).
Proof using SO SS.
  intros B C y md i IY YL LI e LB LT.
  destruct (site_fits rnd ch sort o sections gr wt (map without ys) x c p t b m SS 0 0) as (sd0 & sg0 & F0 & SG0). clear F0 sd0.
  unfold construct in C. pose proof SS as [[S1 S2 S3 S4 S5 S6 S7 S8 S9] FI STK TI WE WA OU SL]. rewrite without_layers in *.
  rewrite S2 in C. cbn [bind] in C. destruct (make_profile gr ls) as [ls0|] eqn:EL; [|discriminate]. cbn [bind] in C.
  apply profile_ok in EL. destruct EL as [-> _]. destruct (pile_length p) as [len|]; [|discriminate]. cbn [bind] in C. rewrite S4 in C. cbn [bind] in C.
  destruct (accept_model len c b (Some (profile_bottom gr ls))); [|discriminate]. cbn [bind] in C. rewrite S6, SG0 in C. cbn [bind] in C.
  destruct (tip_area p) as [ta|]; [|discriminate]. cbn [bind] in C. destruct (tip_footprint p) as [fp|]; [|discriminate]. cbn [bind] in C. cbv zeta in C.
  set (st := setting_of o p b (sort (data_rows p)) gr wt ls m sg0) in *.
  unfold make_springs in C. destruct (first_error (flat_map (calls_of st) (work st (map (slayer_of rnd ch ta fp) ys)))) eqn:FE; [discriminate|]. clear C.
  pose proof (err_none _ FE) as ALL. clear FE.
  destruct (site_fits rnd ch sort o sections gr wt (map without ys) x c p t b m SS ta fp) as (sd & sg & F & SG).
  rewrite without_layers in SG, F. assert (sg = sg0) as -> by congruence. fold st in F.
  assert (W0 : In (slayer_of rnd ch ta fp (without y), i) (work st (map (slayer_of rnd ch ta fp) (map without ys)))).
  { apply in_work. split; [apply in_map, in_map; exact IY|]. split; [exact LI|]. unfold elem. cbn [elems st setting_of]. split; assumption. }
  assert (W : In (slayer_of rnd ch ta fp y, i) (work st (map (slayer_of rnd ch ta fp) ys))).
  { apply in_work. split; [apply in_map; exact IY|]. split; [exact LI|]. unfold elem. cbn [elems st setting_of]. split; assumption. }
  pose proof (called_shaft rnd ch sort o sections gr wt (map without ys) x c p t b m SO SS ta fp sd sg0) as CS. rewrite without_layers in CS. fold st in CS.
  specialize (CS F SG (without y) i). cbn [y_layer without] in CS.
  destruct (CS 0%nat (in_map _ _ _ IY) W0) as (s0 & IS0 & _ & C0). destruct (CS 1%nat (in_map _ _ _ IY) W0) as (s1 & IS1 & _ & C1).
  cbv zeta in C0, C1. destruct C0 as (_ & _ & AP0 & _ & _ & _ & _ & G0 & P0). destruct C1 as (_ & _ & AP1 & _ & _ & _ & _ & G1 & P1).
  assert (WW : Some (s_width s0) = Some (s_width s1)).
  { destruct AP0 as (_ & _ & _ & _ & D0 & _), AP1 as (_ & _ & _ & _ & D1 & _). rewrite <- D0, <- D1. reflexivity. }
  injection WW as WW. exists sg0, s0. split; [exact IS0|]. cbv zeta. fold st. intros j J.
  assert (CALLS : forall v, In v (calls_of st (slayer_of rnd ch ta fp y, i)) -> exists r, v = Ok r).
  { intros v I. apply ALL. apply in_flat_map. eauto. }
  unfold calls_of in CALLS. cbn [s_layer s_lat s_ax slayer_of] in CALLS. rewrite YL in CALLS. cbn [option_map] in CALLS.
  assert (GP : good_place (spot ls gr wt b (y_layer y) (if Nat.eqb j 0 then fst e else snd e) (gr - (if Nat.eqb j 0 then fst e else snd e)) (s_width s0)) /\
    forall A (f : place -> res A) store, at_place (shaft_args st (y_layer y) i j) f store = store (f (spot ls gr wt b (y_layer y) (if Nat.eqb j 0 then fst e else snd e) (gr - (if Nat.eqb j 0 then fst e else snd e)) (s_width s0)))).
  { destruct j as [|[|j]]; [| |lia]; cbn [Nat.eqb].
    - split; [exact G0|exact P0].
    - rewrite WW. split; [exact G1|exact P1]. }
  destruct GP as [GP AT]. set (q := spot ls gr wt b (y_layer y) (if Nat.eqb j 0 then fst e else snd e) (gr - (if Nat.eqb j 0 then fst e else snd e)) (s_width s0)) in *.
  destruct GP as [G2 G3 G4 G5 G6]. split; [Lra.lra|]. split; [Lra.lra|]. split.
  - intros OP HP. assert (I : In (f_py (lateral_of rnd ch md) (shaft_args st (y_layer y) i j)) (calls_of st (slayer_of rnd ch ta fp y, i))).
    { unfold calls_of. cbn [s_layer s_lat s_ax slayer_of]. rewrite YL. cbn [option_map]. apply in_or_app. right. apply in_or_app. left.
      cbn [has_py lateral_of]. rewrite HP. cbn [distributed_lateral st setting_of]. rewrite OP. cbn [andb].
      destruct j as [|[|j]]; [left; reflexivity|right; left; reflexivity|lia]. }
    unfold calls_of in I. cbn [s_layer s_lat s_ax slayer_of] in I. rewrite YL in I. cbn [option_map] in I. destruct (CALLS _ I) as (r & R). cbn [f_py lateral_of] in R. rewrite AT in R.
    destruct (py_spring_fct md (c_py ch md (shaft_args st (y_layer y) i j)) q 0 15) as [v|er]; [eauto|discriminate R].
  - intros OP HP. assert (I : In (f_mt (lateral_of rnd ch md) (shaft_args st (y_layer y) i j)) (calls_of st (slayer_of rnd ch ta fp y, i))).
    { unfold calls_of. cbn [s_layer s_lat s_ax slayer_of]. rewrite YL. cbn [option_map]. apply in_or_app. right. apply in_or_app. right. apply in_or_app. left.
      cbn [has_mt lateral_of]. rewrite HP. cbn [distributed_moment st setting_of]. rewrite OP. cbn [andb].
      destruct j as [|[|j]]; [left; reflexivity|right; left; reflexivity|lia]. }
    unfold calls_of in I. cbn [s_layer s_lat s_ax slayer_of] in I. rewrite YL in I. cbn [option_map] in I. destruct (CALLS _ I) as (r & R). cbn [f_mt lateral_of] in R. rewrite AT in R.
    destruct (mt_spring_fct md (fst (c_mt ch md (shaft_args st (y_layer y) i j))) (snd (c_mt ch md (shaft_args st (y_layer y) i j))) q 0 15) as [v|er]; [eauto|discriminate R].
Qed.
End Reach.
