(** Properties C111-C113: plots. *)
From Coq Require Import String List Bool Arith ZArith QArith Qabs Qround Qminmax Lia Lqa Permutation.
From Verif Require Import Base BCModel BCSpec BCProofs BCProps PileModel PileSpec PileProofs PileProps MeshModel AccessModel LinAlg BeamModel SolveModel SpringModel WinklerModel ResultModel WholeProofs ResultProofs.
From Verif Require Import DrawModel DrawSpec DrawProofs.
Import ListNotations.
Local Open Scope Q_scope.

(** C111: the plot of a model draws one arrow for every load in force and no other, each at its node,
    in the direction and in proportion of its load. *)
Theorem C111_loads_drawn : forall z top bottom soil view l g, z <> [] -> model_plot z top bottom soil view l = Ok g ->
  exists tf src, global_forces z l = Ok tf /\ NoDup src /\
    (forall a i, In (a, i) src <-> exists q, nth_error (col a tf) i = Some q /\ ~ q == 0) /\
    Forall2 (fun s A => exists zi q L M, nth_error z (snd s) = Some zi /\ nth_error (col (fst s) tf) (snd s) = Some q /\
      spans z L /\ largest_of (col (fst s) tf) M /\ shows (Nat.eqb (S (snd s)) (length z)) L M (fst s) zi q A) src (g_arrows g).
Proof.
  intros z top bottom soil view l g N H. destruct (model_plot_inv _ _ _ _ _ _ _ H) as (tr & tf & HR & HF & HC).
  pose proof (forces_table _ _ _ HF) as Len. destruct (connectivity_arrows _ _ _ _ _ _ _ _ HC) as [HA _].
  exists tf, (arrow_sources z tf). destruct (arrow_sources_spec z tf Len) as [ND HI]. repeat split; auto; try apply HI.
  eapply Forall2_imp_in; [apply (arrows_shown z tf _ Len HA)|]. intros s A _ (zi & q & H1 & H2 & H3).
  exists zi, q, (total_length z), (load_max (col (fst s) tf)). repeat split; auto; try (apply total_length_spans; auto);
    apply load_max_largest; intros E; rewrite E in H2; destruct (snd s); discriminate.
Qed.
Print Assumptions C111_loads_drawn.

(** C111, in terms of the user's calls: a whole load given last at a place is on the plot. *)
Theorem C111_user_load_drawn : forall h z top bottom soil view g e a i q, model_plot z top bottom soil view (run h []) = Ok g ->
  maps_to z e i -> last_given h Force e a q -> ~ q == 0 -> (exists k, q == inject_Z k) ->
  (forall c, In c h -> call_kind c = Force -> maps_to z (call_elev c) i -> call_elev c == e) ->
  exists A zi v L M, In A (g_arrows g) /\ nth_error z i = Some zi /\ v == q /\ spans z L /\ shows (Nat.eqb (S i) (length z)) L M a zi v A.
Proof.
  intros h z top bottom soil view g e a i q H MT LG NZ W U.
  assert (N : z <> []) by (intros ->; destruct MT as (y & E & _); destruct i; discriminate).
  destruct (C111_loads_drawn _ _ _ _ _ _ _ N H) as (tf & src & HF & _ & HI & F2).
  destruct (C06_whole_loads_reach_their_node h z e a i q MT LG NZ W U) as (t & v & HF' & Hv & Ev).
  assert (t = tf) by congruence. subst t.
  assert (I : In (a, i) src) by (apply HI; exists v; split; auto; rewrite Ev; exact NZ).
  clear HI H. induction F2 as [|s A src As HA F2 IH]; [destruct I|]. destruct I as [->|I].
  - destruct HA as (zi & q' & L & M & H1 & H2 & H3 & _ & H4). cbn [fst snd] in *. assert (q' = v) by congruence. subst q'.
    exists A, zi, v, L, M. repeat split; auto. left. reflexivity.
  - destruct (IH I) as (B & zi & v' & L & M & IB & R). exists B, zi, v', L, M. split; [right; exact IB|exact R].
Qed.
Print Assumptions C111_user_load_drawn.

(** C111: one mark for every support given by the user and no other, at its node. *)
Theorem C111_supports_drawn : forall z top bottom soil view l g, model_plot z top bottom soil view l = Ok g ->
  exists src, NoDup src /\ (forall a i, In (a, i) src <-> exists b q, In b l /\ sends z Fixation i a b q) /\
    Forall2 (fun s k => exists zi, nth_error z (snd s) = Some zi /\ k = (mark_of (length z) (fst s) (snd s), (0, zi))) src (g_marks g).
Proof.
  intros z top bottom soil view l g H. destruct (model_plot_inv _ _ _ _ _ _ _ H) as (tr & tf & HR & HF & HC).
  pose proof (restrained_table _ _ _ HR) as Len. destruct (connectivity_arrows _ _ _ _ _ _ _ _ HC) as [_ HM].
  destruct (mark_sources_spec tr) as [ND HI]. exists (mark_sources tr). split; [exact ND|]. split.
  - intros a i. rewrite HI. apply (restrained_sent _ _ _ HR).
  - rewrite HM. apply marks_shown. exact Len.
Qed.
Print Assumptions C111_supports_drawn.

Lemma run_tables : forall z h, exists tr tf, global_restrained z (run h []) = Ok tr /\ global_forces z (run h []) = Ok tf.
Proof.
  intros z h. unfold global_restrained, global_forces. rewrite !run_never_conflicts. cbn. eauto.
Qed.

(** C111: which models can be plotted.  A model that carries moments but no force at all cannot. *)
Theorem C111_plotted_iff : forall z top bottom soil view h tf, global_forces z (run h []) = Ok tf ->
  let loaded a := exists i q, nth_error (col a tf) i = Some q /\ ~ q == 0 in
  ((exists g, model_plot z top bottom soil view (run h []) = Ok g) <-> (loaded AX -> loaded AY \/ loaded AZ)) /\
  (forall e, model_plot z top bottom soil view (run h []) = Err e -> e = UnboundLocalError).
Proof.
  intros z top bottom soil view h tf HF loaded. destruct (run_tables z h) as (tr & tf' & HR & HF'). assert (tf' = tf) by congruence. subst tf'.
  pose proof (forces_table _ _ _ HF) as Len. unfold model_plot. rewrite HR, HF. cbn [bind]. unfold connectivity, load_arrows.
  assert (SL : forall a, some_load (col a tf) = true <-> loaded a) by (intros a; apply some_load_iff).
  destruct (some_load (col AY tf) || some_load (col AZ tf)) eqn:B.
  - rewrite moment_loop_true. cbn [bind]. split; [|intros e H; destruct soil; discriminate H]. split; [|destruct soil; eauto].
    intros _ _. apply orb_true_iff in B. rewrite !SL in B. exact B.
  - rewrite moment_loop_false, numbered_existsb by apply Len. apply orb_false_iff in B. destruct B as [BY BZ].
    destruct (some_load (col AX tf)) eqn:BX; cbn [bind].
    + split; [|intros e H; congruence]. split; [intros (g & H); discriminate|]. intros H. exfalso.
      destruct (H (proj1 (SL AX) BX)) as [K|K]; apply SL in K; congruence.
    + split; [|intros e H; destruct soil; discriminate H]. split; [|destruct soil; eauto].
      intros _ K. apply SL in K. congruence.
Qed.
Print Assumptions C111_plotted_iff.

(** C111 refuted: a pile loaded by a moment only cannot be plotted, whatever the mesh. *)
Theorem C111_only_moments_refuted : forall z top bottom soil view e i q, maps_to z e i -> ~ int_cast q == 0 ->
  model_plot z top bottom soil view (run [SetPointload e None None (Some q)] []) = Err UnboundLocalError.
Proof.
  intros z top bottom soil view e i q MT NZ. set (h := [SetPointload e None None (Some q)]).
  destruct (run_tables z h) as (tr & tf & HR & HF). destruct (C111_plotted_iff z top bottom soil view h tf HF) as [I E].
  assert (Li : (i < length z)%nat) by (destruct MT as (y & Hy & _); apply nth_error_Some; congruence).
  assert (Q0 : ~ q == 0) by (intros Q0; apply NZ; unfold int_cast; replace (Qle_bool 0 q) with true by (symmetry; apply Qle_bool_iff; lra); rewrite (Qround.Qfloor_comp q 0 Q0); reflexivity).
  assert (TF : tf = apply_bc int_cast z Force (run h []) (zeros z)) by (unfold global_forces in HF; destruct (validate_bc (run h []) Force); [injection HF; auto|discriminate]).
  destruct (model_plot z top bottom soil view (run h [])) as [g|e'] eqn:P; [|f_equal; apply E; reflexivity].
  exfalso. destruct (proj1 I ltac:(eauto)) as [(j & v & Hv & Nv)|(j & v & Hv & Nv)].
  - exists i, (int_cast q). split; [|exact NZ]. rewrite TF. apply (apply_bc_sent int_cast z Force (run h []) AX i q Li).
    exists [], (mkBC Force e (Some q) None None), []. repeat split; auto; try (cbn; intros; contradiction).
  - pose proof (forces_table _ _ _ HF AY) as Len. assert (Lj : (j < length z)%nat) by (rewrite <- Len; apply nth_error_Some; congruence).
    rewrite TF in Hv. rewrite (apply_bc_not_sent int_cast z Force (run h []) AY j Lj) in Hv; [injection Hv as <-; apply Nv; reflexivity|].
    intros b q' [<-|[]] (_ & _ & G & _). discriminate.
  - pose proof (forces_table _ _ _ HF AZ) as Len. assert (Lj : (j < length z)%nat) by (rewrite <- Len; apply nth_error_Some; congruence).
    rewrite TF in Hv. rewrite (apply_bc_not_sent int_cast z Force (run h []) AZ j Lj) in Hv; [injection Hv as <-; apply Nv; reflexivity|].
    intros b q' [<-|[]] (_ & _ & G & _). discriminate.
Qed.
Print Assumptions C111_only_moments_refuted.

(** C111 refuted: a prescribed displacement holds the pile but is not drawn. *)
Theorem C111_prescribed_displacement_refuted : forall z top bottom soil view e i q, maps_to z e i -> ~ q == 0 ->
  let l := run [SetPointdisplacement e (Some q) None None] [] in
  exists td tr g, global_disp z l = Ok td /\ global_restrained z l = Ok tr /\ nth_error (support_col (col AY tr) (col AY td)) i = Some true /\
    model_plot z top bottom soil view l = Ok g /\ g_marks g = [] /\ g_arrows g = [].
Proof.
  intros z top bottom soil view e i q MT NZ l.
  destruct (C07_nonzero_displacement_supported [SetPointdisplacement e (Some q) None None] z e AY i q MT) as (td & tr & HD & HR & _ & HS); auto.
  { exists [], (SetPointdisplacement e (Some q) None None), []. repeat split; auto; try (cbn; intros; contradiction). }
  { intros c [<-|[]] _ _. reflexivity. }
  assert (HF : global_forces z l = Ok (zeros z)) by reflexivity.
  assert (PG : exists g, model_plot z top bottom soil view l = Ok g).
  { destruct (C111_plotted_iff z top bottom soil view [SetPointdisplacement e (Some q) None None] (zeros z) HF) as [I _]. apply I.
    intros (j & v & Hv & Nv). exfalso. rewrite zeros_col in Hv. rewrite nth_error_map in Hv. destruct (nth_error z j); [|discriminate]. injection Hv as <-. apply Nv. reflexivity. }
  destruct PG as (g & PG). exists td, tr, g. repeat split; auto.
  - destruct (C111_supports_drawn _ _ _ _ _ _ _ PG) as (src & _ & HI & F2). destruct F2 as [|[a j] k src' ks _ _]; auto. exfalso.
    destruct (proj1 (HI a j) (or_introl eq_refl)) as (b & q' & Ib & (K & _)). destruct Ib as [<-|[]]. discriminate K.
  - destruct z as [|z0 z']; [destruct MT as (y & Hy & _); destruct i; discriminate|].
    destruct (C111_loads_drawn (z0 :: z') _ _ _ _ _ _ ltac:(discriminate) PG) as (tf & src & HF' & _ & HI & F2).
    assert (tf = zeros (z0 :: z')) by congruence. subst tf. destruct F2 as [|[a j] k src' ks _ _]; auto. exfalso.
    destruct (proj1 (HI a j) (or_introl eq_refl)) as (v & Hv & Nv). rewrite zeros_col, nth_error_map in Hv.
    destruct (nth_error (z0 :: z') j); [|discriminate]. injection Hv as <-. apply Nv. reflexivity.
Qed.
Print Assumptions C111_prescribed_displacement_refuted.

(** C111: mesh, supports and arrows lie within the limits of the plot, provided matplotlib answered
    limits that contain the mesh. *)
Theorem C111_visible : forall z top bottom soil view l g, model_plot z top bottom soil view l = Ok g ->
  (forall q, In q z -> inside view q) ->
  (forall q, In q z -> visible g (0, q)) /\
  (forall k p, In (k, p) (g_marks g) -> visible g p) /\
  (forall A, In A (g_arrows g) -> visible g (ar_from A) /\ visible g (ar_to A)).
Proof.
  intros z top bottom soil view l g H V. pose proof (total_length_nonneg z) as T.
  assert (W : forall p zi, In zi z -> Qabs (fst p) <= 0.1 * total_length z -> Qabs (snd p - zi) <= 0.1 * total_length z -> visible g p).
  { intros p zi I A B. destruct (model_plot_inv _ _ _ _ _ _ _ H) as (tr & tf & HR & HF & HC). unfold connectivity in HC.
    destruct (load_arrows z tf) as [ar|]; [|discriminate]. cbn [bind] in HC. destruct (V zi I) as [V1 V2].
    apply Qabs_Qle_condition in A. apply Qabs_Qle_condition in B.
    destruct soil as [s|]; injection HC as <-; unfold visible, inside; cbn [g_xlim g_ylim fst snd].
    - pose proof (Q.le_min_r (Qmin bottom (pf_bottom s)) (fst view)).
      pose proof (Q.le_max_r (Qmax (Qmax top (pf_top s)) (pf_water s)) (snd view)). repeat split; lra.
    - repeat split; lra. }
  assert (M0 : forall zi, In zi z -> visible g (0, zi)).
  { intros zi I. apply (W (0, zi) zi I); cbn [fst snd]; [change (Qabs 0) with 0; lra|].
    setoid_replace (zi - zi) with 0 by ring. change (Qabs 0) with 0. lra. }
  split; [exact M0|]. split.
  - intros k p I. destruct (C111_supports_drawn _ _ _ _ _ _ _ H) as (src & _ & _ & F2).
    induction F2 as [|s m src' ms Hm F2 IH]; [destruct I|]. destruct I as [->|I]; [|auto].
    destruct Hm as (zi & Hz & E). injection E as _ ->. apply M0. eapply nth_error_In; eauto.
  - intros A I. destruct (model_plot_inv _ _ _ _ _ _ _ H) as (tr & tf & HR & HF & HC). pose proof (forces_table _ _ _ HF) as Len.
    destruct (connectivity_arrows _ _ _ _ _ _ _ _ HC) as [HA _]. rewrite (load_arrows_value z tf _ Len HA) in I.
    assert (G : forall p, p = ar_from A \/ p = ar_to A -> visible g p); [|split; apply G; auto].
    intros p Hp. apply in_app_or in I. destruct I as [I|I]; [|apply in_app_or in I; destruct I as [I|I]].
    + destruct (lateral_inside z _ A (Len AY) I p Hp) as [B1 B2]. apply (W p (snd p) B2 B1).
      setoid_replace (snd p - snd p) with 0 by ring. change (Qabs 0) with 0. lra.
    + destruct (axial_inside z _ A (Len AZ) I p Hp) as [B1 (zi & B2 & B3)]. apply (W p zi B2); auto. rewrite B1. change (Qabs 0) with 0. lra.
    + destruct (moment_inside z _ A (Len AX) I p Hp) as [B1 B2]. apply (W p (snd p) B2 B1).
      setoid_replace (snd p - snd p) with 0 by ring. change (Qabs 0) with 0. lra.
Qed.
Print Assumptions C111_visible.

(** C111: soil layers are drawn behind the pile, over the whole width of the plot, each at its elevations. *)
Theorem C111_layers_drawn : forall z top bottom s view l g, model_plot z top bottom (Some s) view l = Ok g ->
  Forall2 (fun y b => forall x e, inside (g_xlim g) x -> (in_box b (x, e) <-> l_bottom (snd y) <= e <= l_top (snd y))) (pf_layers s) (g_boxes g) /\
  Forall2 (fun y c => cp_text c = fst y /\ (l_bottom (snd y) < l_top (snd y) -> l_bottom (snd y) < cp_y c < l_top (snd y))) (pf_layers s) (g_captions g).
Proof.
  intros z top bottom s view l g H. pose proof (total_length_nonneg z) as T.
  destruct (model_plot_inv _ _ _ _ _ _ _ H) as (tr & tf & HR & HF & HC). unfold connectivity in HC.
  destruct (load_arrows z tf) as [ar|]; [|discriminate]. cbn [bind] in HC. injection HC as <-. cbn [g_boxes g_captions g_xlim]. clear H.
  split; induction (pf_layers s) as [|y ys IH]; cbn [map]; try apply Forall2_nil; (apply Forall2_cons; [|exact IH]).
  - intros x e [X1 X2]. unfold in_box, soil_box. cbn in *. split; intros; lra.
  - cbn. split; [reflexivity|]. intros. lra.
Qed.
Print Assumptions C111_layers_drawn.

(** A level line at elevation [w] from edge to edge of the plot, with a mark inside *)
Definition level_line (g : picture) (w : Q) (c : list point) : Prop :=
  (forall p, In p c -> snd p == w) /\ (exists p, In p c /\ fst p <= fst (g_xlim g)) /\ (exists p, In p c /\ snd (g_xlim g) <= fst p) /\ exists p, In p c /\ inside (g_xlim g) (fst p).
(** C111: the curves are the mesh on the axis and, with soil, the water line from edge to edge. *)
Theorem C111_curves_drawn : forall z top bottom soil view l g, model_plot z top bottom soil view l = Ok g ->
  exists rest, g_lines g = map (fun q => (0, q)) z :: rest /\
  match soil with None => rest = [] | Some s => length rest = length (pf_layers s) /\ forall c, In c rest -> level_line g (pf_water s) c end.
Proof.
  intros z top bottom soil view l g H. pose proof (total_length_nonneg z) as T.
  destruct (model_plot_inv _ _ _ _ _ _ _ H) as (tr & tf & HR & HF & HC). unfold connectivity in HC. destruct (load_arrows z tf) as [ar|]; [|discriminate]. cbn [bind] in HC.
  destruct soil as [s|]; injection HC as <-; cbn [g_lines]; eexists; (split; [reflexivity|]); [|reflexivity]. split; [rewrite map_length; reflexivity|].
  intros c I. apply in_map_iff in I. destruct I as (y & <- & _). unfold level_line, water_in_model, inside. cbn [g_xlim fst snd]. split.
  - intros p [<-|[<-|[<-|[]]]]; reflexivity.
  - split; [eexists; split; [left; reflexivity|cbn [fst]; lra]|]. split; [eexists; split; [right; right; left; reflexivity|cbn [fst]; lra]|]. eexists. split; [right; left; reflexivity|cbn [fst]; lra].
Qed.
Print Assumptions C111_curves_drawn.

(** C111 refuted: the names of the layers are placed outside the limits of the plot. *)
Theorem C111_names_in_plot_refuted : forall z top bottom s view l g c, model_plot z top bottom (Some s) view l = Ok g ->
  0 < total_length z -> In c (g_captions g) -> ~ visible g (cp_x c, cp_y c).
Proof.
  intros z top bottom s view l g c H T I. destruct (model_plot_inv _ _ _ _ _ _ _ H) as (tr & tf & HR & HF & HC). unfold connectivity in HC.
  destruct (load_arrows z tf) as [ar|]; [|discriminate]. cbn [bind] in HC. injection HC as <-. cbn [g_captions] in I.
  apply in_map_iff in I. destruct I as (y & <- & _). intros [[V _] _]. cbn in V. lra.
Qed.
Print Assumptions C111_names_in_plot_refuted.

Definition ex_calls := [SetPointload 0 (Some 250) None (Some (-100)); SetPointload (-10) None (Some (-500)) None;
  SetSupport (-20) (Some 1) (Some 1) None; SetSupport (-5) (Some 1) None None].
Definition ex_soil := mkProfile 0 (-3) [("clay"%string, mkLayer 0 (-10) 18); ("sand"%string, mkLayer (-10) (-40) 19)].
Definition ex_nodes : list Q := [0; -5; -10; -15; -20].

Example C111_example : exists g, model_plot ex_nodes 0 (-20) (Some ex_soil) (-21, 1) (run ex_calls []) = Ok g /\
  length (g_arrows g) = 3%nat /\ g_marks g = [(CaretUp, (0, -20)); (CaretRight, (0, -5)); (CaretRight, (0, -20))] /\
  length (g_boxes g) = 2%nat /\ (forall q, In q ex_nodes -> inside (-21, 1) q).
Proof.
  eexists. split; [vm_compute; reflexivity|]. repeat split; try (vm_compute; reflexivity);
    cbn in H; repeat (destruct H as [<-|H]; [vm_compute; discriminate|]); destruct H.
Qed.

(** C112: the plot of a soil profile shows every layer at its elevations, with its name in it. *)
Theorem C112_layers_drawn : forall s e x, 0 <= x <= 1 ->
  ((exists b, In b (g_boxes (soil_plot s)) /\ in_box b (x, e)) <-> exists y, In y (pf_layers s) /\ l_bottom (snd y) <= e <= l_top (snd y)).
Proof.
  intros s e x X. unfold soil_plot. cbn [g_boxes]. split.
  - intros (b & I & H). apply in_map_iff in I. destruct I as (y & <- & Iy). exists y. split; auto. unfold in_box in H. cbn in H. lra.
  - intros (y & Iy & H). eexists. split; [apply in_map; exact Iy|]. unfold in_box. cbn. lra.
Qed.
Print Assumptions C112_layers_drawn.

(** C112: the water line goes from edge to edge; its mark is inside. *)
Theorem C112_water_drawn : forall s, g_lines (soil_plot s) <> [] /\ forall c, In c (g_lines (soil_plot s)) -> level_line (soil_plot s) (pf_water s) c.
Proof.
  intros s. split; [discriminate|]. intros c [<-|[<-|[]]]; (split; [intros p [<-|[<-|[<-|[]]]]; reflexivity|]); (split; [eexists; split; [left; reflexivity|vm_compute; discriminate]|]);
    (split; [eexists; split; [right; right; left; reflexivity|vm_compute; discriminate]|]); (eexists; split; [right; left; reflexivity|split; vm_compute; discriminate]).
Qed.
Print Assumptions C112_water_drawn.

(** C112: for an accepted profile whose layers meet, the whole profile and the names of its layers are
    within the limits, and so is the water line unless it is below the profile. *)
Theorem C112_visible : forall s r, proper_layers (map snd (pf_layers s)) -> make_profile (pf_top s) (map snd (pf_layers s)) = Ok r ->
  (forall i a b, nth_error (layers_down (map snd (pf_layers s))) i = Some a -> nth_error (layers_down (map snd (pf_layers s))) (S i) = Some b -> l_top b == l_bottom a) ->
  let g := soil_plot s in
  (forall y e, In y (pf_layers s) -> l_bottom (snd y) <= e <= l_top (snd y) -> inside (g_ylim g) e) /\
  (forall c, In c (g_captions g) -> visible g (cp_x c, cp_y c)) /\
  (inside (g_ylim g) (pf_water s) <-> exists b, lowest_bottom (map snd (pf_layers s)) b /\ b <= pf_water s).
Proof.
  intros s r PL MP ME g. destruct (C14_exact_when_layers_meet _ _ _ PL MP ME) as (b & (LB1 & LB2) & EB).
  destruct (C13_accepted_profile_is_a_stack _ _ _ MP) as (_ & P & D & _ & a & t & Ed & Ea).
  assert (TP : forall y, In y (pf_layers s) -> l_top (snd y) <= pf_top s).
  { intros y I. assert (Iy : In (snd y) (layers_down (map snd (pf_layers s)))) by (eapply Permutation_in; [exact P|apply in_map; exact I]).
    apply In_nth_error in Iy. destruct Iy as ([|j] & Hj).
    - rewrite Ed in Hj. injection Hj as <-. lra.
    - specialize (D 0%nat (S j) a (snd y) ltac:(lia)). rewrite Ed in D, Hj. specialize (D eq_refl Hj). lra. }
  assert (YM1 : pf_top s + 5 <= snd (g_ylim g)) by apply Q.le_max_l.
  assert (YM2 : pf_water s + 5 <= snd (g_ylim g)) by apply Q.le_max_r.
  assert (YB : fst (g_ylim g) == b) by exact EB.
  assert (A : forall y e, In y (pf_layers s) -> l_bottom (snd y) <= e <= l_top (snd y) -> inside (g_ylim g) e).
  { intros y e I H. specialize (TP y I). specialize (LB2 (snd y) (in_map snd _ _ I)). unfold inside. lra. }
  split; [exact A|]. split.
  - intros c I. apply in_map_iff in I. destruct I as (y & <- & I). split; [unfold inside; cbn; lra|]. apply (A y); auto.
    cbn. pose proof (PL (snd y) (in_map snd _ _ I)). lra.
  - split.
    + intros [W _]. exists b. split; [split; auto|]. lra.
    + intros (b' & (X & Y) & W). destruct X as (x & Ix & Ex). specialize (LB2 x Ix). unfold inside. lra.
Qed.
Print Assumptions C112_visible.

Example C112_example : make_profile (pf_top ex_soil) (map snd (pf_layers ex_soil)) = Ok (map snd (pf_layers ex_soil)) /\
  g_ylim (soil_plot ex_soil) = (-40, 5).
Proof. split; vm_compute; reflexivity. Qed.

(** C113: the deflection and settlement curves go through every node, in millimetres. *)
Theorem C113_displacement_curves : forall r z d, res_disp r = Some (disp_rows z d) ->
  exists cu cs, pn_curve (U_plot r z) = Some cu /\ pn_curve (settlement_plot r z) = Some cs /\
    length cu = length z /\ length cs = length z /\
    forall i zi, nth_error z i = Some zi ->
      nth_error cu i = Some (d (3 * i + 1)%nat * 1000, zi) /\ nth_error cs i = Some (d (3 * i)%nat * 1000, zi) /\
      nth_error (pn_axis (U_plot r z)) i = Some (0, zi).
Proof.
  intros r z d H. unfold U_plot, settlement_plot, disp_panel, deflection, settlement, column. rewrite H. cbn [option_map pn_curve pn_axis].
  do 2 eexists. split; [reflexivity|]. split; [reflexivity|]. rewrite !map_length, disp_rows_length. repeat split; auto.
  - rewrite !nth_error_map, (disp_rows_nth z d i zi) by assumption. reflexivity.
  - rewrite !nth_error_map, (disp_rows_nth z d i zi) by assumption. reflexivity.
  - rewrite nth_error_map, H0. reflexivity.
Qed.
Print Assumptions C113_displacement_curves.

(** C113: the force curves are the force table, and the limits contain zero and every value. *)
Theorem C113_force_curves : forall r z rows, res_forces r = Some rows -> rows <> [] ->
  forall label pick p, In (label, pick, p) [("N [kN]"%string, first3, N_plot r z); ("V [kN]"%string, second3, V_plot r z); ("M [kNm]"%string, third3, M_plot r z)] ->
  pn_label p = label /\ pn_curve p = Some (map (fun q => (pick q, fst q)) rows) /\
  exists lim, pn_xlim p = Some lim /\ fst lim < snd lim /\ inside lim 0 /\ forall q, In q rows -> inside lim (pick q).
Proof.
  intros r z rows H N label pick p I.
  assert (G : p = F_plot label pick r z) by (repeat (destruct I as [I|I]; [injection I as <- <- <-; reflexivity|]); destruct I). subst p. clear I.
  unfold F_plot, column. rewrite H. cbn [option_map pn_label pn_curve pn_xlim]. rewrite !map_map. cbn [fst snd].
  split; [reflexivity|]. split; [reflexivity|]. eexists. split; [reflexivity|].
  assert (N' : map pick rows <> []) by (destruct rows; [congruence|discriminate]).
  destruct (zmax_spec _ N') as ((q1 & I1 & E1) & G1). destruct (zmin_spec _ N') as ((q2 & I2 & E2) & G2).
  pose proof (G1 q2 I2) as LE. rewrite <- E2 in LE.
  unfold limits, inside. cbn [fst snd].
  set (lo := zmin (map pick rows)) in *. set (hi := zmax (map pick rows)) in *.
  pose proof (Qabs_nonneg (lo + 1)) as A1. pose proof (Qabs_nonneg (hi + 1)) as A2.
  pose proof (Q.le_min_l 0 (lo - 0.1 * Qabs (lo + 1))) as M1. pose proof (Q.le_min_r 0 (lo - 0.1 * Qabs (lo + 1))) as M2.
  pose proof (Q.le_max_l 0 (hi + 0.1 * Qabs (hi + 1))) as M3. pose proof (Q.le_max_r 0 (hi + 0.1 * Qabs (hi + 1))) as M4.
  split; [|split; [lra|]].
  - destruct (Qlt_le_dec lo (1 # 9)) as [B|B].
    + assert (lo - 0.1 * Qabs (lo + 1) < 0); [|lra].
      revert A1 M2. apply Qabs_case; intros; lra.
    + assert (0 < hi + 0.1 * Qabs (hi + 1)) by lra. lra.
  - intros q I. specialize (G1 (pick q) (in_map pick _ _ I)). specialize (G2 (pick q) (in_map pick _ _ I)). fold lo hi in G1, G2. lra.
Qed.
Print Assumptions C113_force_curves.

(** C113: what each figure shows, from left to right, and that it is handed out only when asked for. *)
Theorem C113_figures : forall r z,
  map pn_label (plot_deflection r z) = ["Deflection [mm]"]%string /\
  map pn_label (plot_settlement r z) = ["Settlement [mm]"; "N [kN]"]%string /\
  map pn_label (plot_forces r z) = ["N [kN]"; "V [kN]"; "M [kNm]"]%string /\
  map pn_label (plot_results r z) = ["Deflection [mm]"; "N [kN]"; "V [kN]"; "M [kNm]"]%string /\
  (forall assign fig f, assigned assign fig = Some f <-> assign = true /\ f = fig).
Proof.
  intros r z. repeat split; intros; unfold assigned in *; destruct assign; intuition congruence.
Qed.
Print Assumptions C113_figures.

(** C113 refuted: for an analysis that did not converge the limits have no width. *)
Theorem C113_failed_analysis_refuted : forall r z, res_forces r = None -> pn_xlim (N_plot r z) = Some (0, 0) /\ pn_curve (N_plot r z) = None.
Proof. intros r z H. unfold N_plot, F_plot, column. rewrite H. auto. Qed.
Print Assumptions C113_failed_analysis_refuted.

Example C113_example : let r := {| res_disp := Some (disp_rows [0; -1] (fun i => inject_Z (Z.of_nat i))); res_forces := Some [(0, (5, 6, 7)); (-1, (-5, 2, 3))];
    res_reac := []; res_mob := None; res_hb := None; res_mb := None; res_iter := 1 |} in
  pn_curve (U_plot r [0; -1]) = Some [(1000, 0); (4000, -1)] /\ res_forces r <> None.
Proof. split; [vm_compute; reflexivity|discriminate]. Qed.
