(** C130: results do not depend on the datum from which elevations are measured. *)
From Coq Require Import List Bool Arith ZArith QArith Qabs Qround Reals Qreals Permutation Lia Lqa Lra.
From Verif Require Import Base PileModel PileSpec MeshModel MeshSpec StressModel StressProps BCModel BeamModel SolveModel SpringModel WinklerModel CreateModel CreateProps WholeModel SessionModel
  AxialModel LateralModel CapacityModel CapacityProps FullModel FullSpec SiteProofs FullProps GetterModel LiveModel SplitSpec SplitProofs SplitProps DatumSpec DatumProofs RangeProofs LevelProofs.
Import ListNotations.
Local Open Scope Q_scope.

(** ** Mesh *)
(** Before rounding every elevation of the mesh moves with the datum, whatever the move. *)
Theorem C130_mesh : forall d p b b' soil x c, up d b b' ->
  both_or_none (Forall2 (up d)) (mesh p b soil x c) (mesh (map (raise_section d) p) b' (option_map (map (raise_layer d)) soil) (map (fun z => z + d) x) c).
Proof. exact mesh_up. Qed.
Print Assumptions C130_mesh.

(** The nodes are rounded to tenths of a millimetre: they move with the datum when it moves by tenths of a millimetre. *)
Theorem C130_nodes : forall d m m', moves d m -> Forall2 (up d) m m' ->
  Forall2 (up d) (nodes_of m) (nodes_of m') /\ map (fun e => fst e - snd e) (elements_of m') = map (fun e => fst e - snd e) (elements_of m).
Proof.
  intros d m m' (k & D & K) F. pose proof (nodes_up d k m m' D K F) as N. split; [exact (steps_up d k _ _ D N)|].
  pose proof (elements_up k m m' N) as EU. induction EU as [|e e' t t' [A B] EU IH]; [reflexivity|]. cbn [map]. rewrite IH, (step_minus k _ _ _ _ A B). reflexivity.
Qed.
Print Assumptions C130_nodes.

(** An odd number of tenths and a tie: 1.25005 m above the datum rounds down, 1.25015 m rounds up. *)
Theorem C130_rounding_refuted : exists p b x c d m m', d == 1 / 10000 /\ make_pile p = Ok p /\ pile_bottom p = Ok b /\ mesh p b None x c = Some m /\
  mesh (map (raise_section d) p) (b + d) None (map (fun z => z + d) x) c = Some m' /\ ~ Forall2 (up d) (nodes_of m) (nodes_of m').
Proof.
  exists [mkSection 0 (-2.0002) 1 1 1 1 1 1 1], (-2.0002), [-1], 0.26, (1 # 10000). do 2 eexists. split; [reflexivity|]. split; [vm_compute; reflexivity|]. split; [vm_compute; reflexivity|].
  split; [vm_compute; reflexivity|]. split; [vm_compute; reflexivity|].
  intros F. assert (G : forall l l', Forall2 (up (1 # 10000)) l l' -> forallb (fun q => Qeq_bool (snd q) (fst q + (1 # 10000))) (combine l l') = true).
  { clear. intros l l' F. induction F as [|a b t t' U F IH]; [reflexivity|]. cbn [combine forallb fst snd]. rewrite IH, andb_true_r. apply Qeq_bool_iff. exact U. }
  apply G in F. vm_compute in F. discriminate.
Qed.
Print Assumptions C130_rounding_refuted.

(** ** Construction *)
Section Site.
Variables (rnd : R -> Q) (ch ch' : chance) (sort sort' : list (Q * section) -> list (Q * section)) (o : options) (d : Q) (sections : list section) (gr wt : Q) (ys : list soil_layer) (x : list Q) (c : Q).
Definition meshes_move : Prop := forall p b m, make_pile sections = Ok p -> pile_bottom p = Ok b -> mesh p b (Some (map y_layer ys)) x c = Some m -> moves d m.
Definition here : res (option built) := construct rnd ch sort o sections gr wt ys x c.
Definition there : res (option built) := construct rnd ch' sort' o (map (raise_section d) sections) (gr + d) (wt + d) (map (raise_soil d) ys) (map (fun z => z + d) x) c.
End Site.

(** The model is accepted or refused alike, with the same nodes on the new datum, stresses and springs. *)
Theorem C130_model : forall rnd ch ch' sort sort' o d sections gr wt ys x c,
  alike ch ch' -> sorts_alike d sort sort' -> within d (map y_layer ys) -> meshes_move d sections ys x c ->
  alike_res (both_or_none (built_up d)) (here rnd ch sort o sections gr wt ys x c) (there rnd ch' sort' o d sections gr wt ys x c).
Proof. intros rnd ch ch' sort sort' o d sections gr wt ys x c AL SO WI MV. exact (model_up rnd ch ch' sort sort' o d sections gr wt ys x c AL SO WI MV). Qed.
Print Assumptions C130_model.

(** Far from the datum the check of the layers is laxer: 1.5 mm between layers are refused at 0 m and accepted at 2000 km. *)
Theorem C130_profile_refuted : exists gr ls d, make_profile gr ls = Err ValueError /\ make_profile (gr + d) (map (raise_layer d) ls) = Ok (map (raise_layer d) ls).
Proof. exists 0, [mkLayer 0 (-10) 18; mkLayer (-10.0015) (-20) 18], 2000000. split; vm_compute; reflexivity. Qed.
Print Assumptions C130_profile_refuted.

(** ** Analyses and programs *)
Theorem C130_analysis : forall rnd ch ch' sort sort' o d sections gr wt ys x c,
  alike ch ch' -> sorts_alike d sort sort' -> within d (map y_layer ys) -> meshes_move d sections ys x c -> forall solve ty circ E nu cs mi,
  (forall B, here rnd ch sort o sections gr wt ys x c = Ok (Some B) -> forall q, In q cs -> same_reach d (nodes_of (b_mesh B)) (call_elevation q)) ->
  soil_analysis rnd ch' sort' solve ty circ E nu o (map (raise_section d) sections) (gr + d) (wt + d) (map (raise_soil d) ys) (map (fun z => z + d) x) c (map (raise_call d) cs) mi =
  soil_analysis rnd ch sort solve ty circ E nu o sections gr wt ys x c cs mi.
Proof. intros rnd ch ch' sort sort' o d sections gr wt ys x c AL SO WI MV solve ty circ E nu cs mi H. exact (analysis_up rnd ch ch' sort sort' o d sections gr wt ys x c AL SO WI MV solve ty circ E nu cs mi H). Qed.
Print Assumptions C130_analysis.

(** Every program of setters, tables of springs, analyses and resistances: the same answers, at elevations on the new datum. *)
Theorem C130_programs : forall rnd ch ch' sort sort' o d sections gr wt ys x c,
  alike ch ch' -> sorts_alike d sort sort' -> within d (map y_layer ys) -> meshes_move d sections ys x c -> forall solve ty circ E nu prog n,
  (forall B, here rnd ch sort o sections gr wt ys x c = Ok (Some B) -> n = (length (nodes_of (b_mesh B)) - 1)%nat /\ forall q, In q prog -> sets_clear d (nodes_of (b_mesh B)) q) ->
  alike_res (both_or_none (Forall2 (answer_up d n))) (live rnd ch sort solve ty circ E nu o sections gr wt ys x c prog)
    (live rnd ch' sort' solve ty circ E nu o (map (raise_section d) sections) (gr + d) (wt + d) (map (raise_soil d) ys) (map (fun z => z + d) x) c (map (raise_op d) prog)).
Proof.
  intros rnd ch ch' sort sort' o d sections gr wt ys x c AL SO WI MV solve ty circ E nu prog n H.
  apply (live_up rnd ch ch' sort sort' o d sections gr wt ys x c AL SO WI MV solve ty circ E nu prog n); intros B HB; destruct (H B HB) as [N Q]; [symmetry; exact N|exact Q].
Qed.
Print Assumptions C130_programs.

(** Without soil *)
Theorem C130_beam : forall d solve ty circ E nu sections x c cs,
  (forall p b m, make_pile sections = Ok p -> pile_bottom p = Ok b -> mesh p b None x c = Some m -> moves d m /\ forall q, In q cs -> same_reach d (nodes_of m) (call_elevation q)) ->
  alike_res (both_or_none (beam_up d)) (analyse solve ty circ E nu sections x c cs) (analyse solve ty circ E nu (map (raise_section d) sections) (map (fun z => z + d) x) c (map (raise_call d) cs)).
Proof. exact analyse_up. Qed.
Print Assumptions C130_beam.

(** What is set at a node, and far from the others on either datum, reaches the same nodes. *)
Theorem C130_reach : forall d nodes e, clear_of d nodes e -> same_reach d nodes e.
Proof. exact clear_reach. Qed.
Print Assumptions C130_reach.

(** The tolerance grows with the distance from the datum: a load 1.5 mm above the pile head is dropped at 0 m and applied at 100 m. *)
Theorem C130_load_refuted : exists d nodes nodes' c, Forall2 (up d) nodes nodes' /\
  global_forces nodes (run [c] []) = Ok (zeros nodes) /\ exists t, global_forces nodes' (run [raise_call d c] []) = Ok t /\ hd 0 (col_y t) == 100.
Proof.
  exists 100, [0; -1; -2], [100; 99; 98], (SetPointload 0.0015 (Some 100) None None). split; [repeat constructor|]. split; [vm_compute; reflexivity|]. eexists. split; vm_compute; reflexivity.
Qed.
Print Assumptions C130_load_refuted.

(** ** Weights *)
Theorem C130_weights : forall d m m', moves d m -> Forall2 (up d) m m' -> forall p ls uw wt,
  effective_pile_weight uw (wt + d) (map (raise_section d) p) (elements_of m') = effective_pile_weight uw wt p (elements_of m) /\
  entrapped_soil_weight (wt + d) (map (raise_section d) p) (map (raise_layer d) ls) (elements_of m') = entrapped_soil_weight wt p ls (elements_of m).
Proof.
  intros d m m' (k & D & K) F p ls uw wt. pose proof (elements_up k m m' (nodes_up d k m m' D K F)) as EU. split; [exact (pile_weight_up d k D uw wt p _ _ EU)|exact (soil_weight_up d k D wt p ls _ _ EU)].
Qed.
Print Assumptions C130_weights.

Theorem C130_tip_stress : forall d tip water mud ls, both_or_none Qeq (tip_sig_v_eff tip water mud ls) (tip_sig_v_eff (tip + d) (water + d) mud (map (raise_layer d) ls)).
Proof. exact tip_stress_up. Qed.
Print Assumptions C130_tip_stress.

(** ** Examples *)
Lemma sort_alike : forall d, sorts_alike d sort0 sort0.
Proof. intros d rows. unfold sort0. apply sort_map. intros a b. unfold raise_row. cbn [fst]. apply (leb_up d); reflexivity. Qed.
Lemma moves_exists : meshes_move 25.3 ex_l soil0 [-1] 2.
Proof. intros p b m _ _ _. exists 253000%Z. split; [reflexivity|left; reflexivity]. Qed.
Lemma within_exists : within 25.3 (map y_layer soil0).
Proof. intros l [<-|[<-|[]]]; repeat split; vm_compute; discriminate. Qed.

(** The site of C104 on a datum 25.3 m lower, with a lateral load at the head: read a table, analyse, ask for the shaft resistance. *)
Definition ex_prog : list op := [Set_ (SetPointload 2 (Some 100) None None); Table Lateral Lumped; Solve; Shaft; Tip].
Lemma prog_clear : forall q, In q ex_prog -> sets_clear 25.3 (nodes_of mesh1) q.
Proof.
  intros q I. destruct I as [<-|[<-|[<-|[<-|[<-|[]]]]]]; try exact Logic.I. cbn [sets_clear call_elevation]. apply clear_reach.
  assert (G : forallb (fun z => Qeq_bool z 2 || (Qltb (0.001 + 0.00001 * Qabs 2) (Qabs (z - 2)) && Qltb (0.001 + 0.00001 * Qabs (2 + 25.3)) (Qabs (z - 2)))) (nodes_of mesh1) = true) by (vm_compute; reflexivity).
  intros z I. rewrite forallb_forall in G. specialize (G z I). apply orb_true_iff in G. destruct G as [G|G]; [left; apply Qeq_bool_iff; exact G|right]. apply andb_true_iff in G. destruct G as [G1 G2]. split; apply Qltb_true; assumption.
Qed.
Example C130_example : forall solve, exists B B', here rnd0 ch0 sort0 all_on ex_l 0 (-1) soil0 [-1] 2 = Ok (Some B) /\ there rnd0 ch0 sort0 all_on 25.3 ex_l 0 (-1) soil0 [-1] 2 = Ok (Some B') /\
  hd 0 (nodes_of (b_mesh B')) == 27.3 /\ b_made B' = b_made B /\
  alike_res (both_or_none (Forall2 (answer_up 25.3 6))) (live rnd0 ch0 sort0 solve EulerBernoulli true 210 0.3 all_on ex_l 0 (-1) soil0 [-1] 2 ex_prog)
    (live rnd0 ch0 sort0 solve EulerBernoulli true 210 0.3 all_on (map (raise_section 25.3) ex_l) (0 + 25.3) (-1 + 25.3) (map (raise_soil 25.3) soil0) [-1 + 25.3] 2
      [Set_ (SetPointload (2 + 25.3) (Some 100) None None); Table Lateral Lumped; Solve; Shaft; Tip]).
Proof.
  intros solve. destruct (C104_constructed _ _ _ _ _ _ _ _ _ _ _ _ _ _ storage_exists chance_exists sort_exists (site_exists all_on)) as (st & MD & C & _).
  pose proof (C130_model rnd0 ch0 ch0 sort0 sort0 all_on 25.3 ex_l 0 (-1) soil0 [-1] 2 steady_exists (sort_alike 25.3) within_exists moves_exists) as H.
  pose proof (C130_programs rnd0 ch0 ch0 sort0 sort0 all_on 25.3 ex_l 0 (-1) soil0 [-1] 2 steady_exists (sort_alike 25.3) within_exists moves_exists solve EulerBernoulli true 210 0.3 ex_prog 6) as P.
  unfold here in H, P. rewrite C in H. fold (here rnd0 ch0 sort0 all_on ex_l 0 (-1) soil0 [-1] 2) in C. destruct (there rnd0 ch0 sort0 all_on 25.3 ex_l 0 (-1) soil0 [-1] 2) as [[B'|]|]; cbn [alike_res both_or_none] in H; try contradiction.
  eexists. exists B'. split; [exact C|]. split; [reflexivity|]. destruct H as (_ & N & _ & _ & _ & M). cbn [b_mesh b_made] in N, M.
  split; [|split; [exact M|]].
  - assert (HD : hd 0 (nodes_of mesh1) == 2) by (vm_compute; reflexivity). destruct N as [|a a' t t' U N]; [vm_compute in HD; discriminate|]. cbn [hd] in *. unfold up in U. rewrite U, HD. reflexivity.
  - apply P. intros B HB. unfold here in C. rewrite C in HB. injection HB as <-. cbn [b_mesh]. split; [vm_compute; reflexivity|exact prog_clear].
Qed.
