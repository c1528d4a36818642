(** C123, C124: assignments to the fields of a model. *)
From Coq Require Import List Bool Arith ZArith QArith Reals Lia Lra.
From Verif Require Import Base LinAlg BCModel PileModel MeshModel StressModel StressProps BeamModel SolveModel SpringModel WinklerModel CreateModel CreateProps WholeModel WholeSpec AxialModel CapacityModel CapacityProps FullModel FullSpec FullProps AnalysisProofs
  EditModel EditSpec EditProofs.
Import ListNotations.
Local Open Scope Q_scope.

(** ** C123: the mesh of a model whose fields are assigned to *)
(** Once both tables have been read they stay, whatever is assigned. *)
Theorem C123_kept : forall solve prog ob z es, ob_nodes ob = Some z -> ob_elems ob = Some es ->
  let ob' := snd (program solve prog ob) in fst (read_nodes ob') = Some z /\ fst (read_elems ob') = Some es.
Proof.
  intros solve prog ob z es N E ob'. destruct (program_keeps solve prog ob z es N E) as [A B]. fold ob' in A, B. unfold read_nodes, read_elems. rewrite A, B. auto.
Qed.
Print Assumptions C123_kept.

(** A model with soil: nodes and elements belong together at all times if the nodes are read before the first
    assignment to a field of the mesh. *)
Theorem C123_soil_partial : forall rnd ch sort ty circ E nu o sections s x c ob solve pre post, new_in_soil rnd ch sort ty circ E nu o sections s x c = Ok (Some ob) ->
  forallb (fun o => negb (mesh_field o)) pre = true ->
  let ob' := snd (program solve (pre ++ ReadNodes :: post) ob) in
  exists z es, fst (read_nodes ob') = Some z /\ fst (read_elems ob') = Some es /\ joined z es /\ ob_elems ob = Some es.
Proof.
  intros rnd ch sort ty circ E nu o sections s x c ob solve pre post NW PR ob'. destruct (new_consistent _ _ _ _ _ _ _ _ _ _ _ _ _ NW) as (B & CB & CO & _ & _ & _ & _ & OE).
  exists (nodes_of (b_mesh B)), (elements_of (b_mesh B)). unfold ob'. rewrite program_app, program_snd. clear ob'. set (ob1 := snd (program solve pre ob)).
  pose proof (program_consistent solve pre (b_mesh B) ob PR CO) as C1. fold ob1 in C1.
  assert (E1 : ob_elems ob1 = Some (elements_of (b_mesh B))).
  { assert (G : forall l o1, ob_elems o1 <> None -> ob_elems (snd (program solve l o1)) = ob_elems o1).
    { clear. induction l as [|a l IH]; intros o1 H; [reflexivity|]. rewrite program_snd.
      assert (X : ob_elems (snd (step solve a o1)) = ob_elems o1).
      { assert (RN : ob_elems (snd (read_nodes o1)) = ob_elems o1) by (unfold read_nodes; destruct (ob_nodes o1); [reflexivity|]; destruct (coordinates _); reflexivity).
        assert (RE : forall o2, ob_elems o2 = ob_elems o1 -> ob_elems (snd (read_elems o2)) = ob_elems o1) by (intros o2 H2; unfold read_elems; rewrite H2; destruct (ob_elems o1) eqn:Y; [cbn; congruence|congruence]).
        destruct a; try reflexivity; cbn [step].
        - destruct (read_nodes o1). exact RN.
        - specialize (RE o1 eq_refl). destruct (read_elems o1). exact RE.
        - unfold solve_object. destruct (validate_bc (ob_bcs o1) Force); [|reflexivity]. destruct (read_nodes o1) as [z o2]. cbn [snd] in RN. destruct z; [|exact RN]. specialize (RE o2 RN). destruct (read_elems o2) as [e o3]. cbn [snd] in RE.
          destruct (validate_bc (ob_bcs o1) Displacement); [|exact RN]. destruct (fd_soil (ob_fields o1)), (validate_bc (ob_bcs o1) Fixation); try exact RN; destruct e; exact RE. }
      rewrite IH by (rewrite X; exact H). exact X. }
    unfold ob1. rewrite G; [exact OE|]. rewrite OE. discriminate. }
  destruct (read_nodes_consistent _ _ C1) as (_ & N2 & C2 & _). assert (E2 : ob_elems (snd (step solve ReadNodes ob1)) = Some (elements_of (b_mesh B))).
  { cbn [step]. unfold read_nodes. destruct (ob_nodes ob1); [exact E1|]. destruct (coordinates _); exact E1. }
  assert (N3 : ob_nodes (snd (step solve ReadNodes ob1)) = Some (nodes_of (b_mesh B))) by (cbn [step]; destruct (read_nodes ob1); exact N2).
  destruct (program_keeps solve post _ _ _ N3 E2) as [A D]. rewrite (read_cached _ _ A), (read_cached_elems _ _ D). split; [reflexivity|]. split; [reflexivity|]. split; [|exact OE].
  apply mesh_joined. destruct CO as [CO _]. apply (coordinates_nonempty _ _ CO).
Qed.
Print Assumptions C123_soil_partial.

(** A model without soil: fields may be assigned until the tables are looked at; nodes and elements then belong
    together if no field of the mesh is assigned between the first look and the reading of both. *)
Theorem C123_bare_partial : forall ty circ E nu o sections x c ob solve pre mid post, new_bare ty circ E nu o sections x c = Ok ob ->
  existsb looks pre = false -> forallb (fun o => negb (mesh_field o)) mid = true ->
  forall m, coordinates (ob_fields (snd (program solve pre ob))) = Some m ->
  let ob' := snd (program solve (pre ++ mid ++ ReadNodes :: ReadElems :: post) ob) in
  fst (read_nodes ob') = Some (nodes_of m) /\ fst (read_elems ob') = Some (elements_of m) /\ joined (nodes_of m) (elements_of m).
Proof.
  intros ty circ E nu o sections x c ob solve pre mid post NW PL MF m CM ob'.
  assert (OB : ob_nodes ob = None /\ ob_elems ob = None).
  { unfold new_bare in NW. destruct (make_pile sections); [|discriminate]. cbn [bind] in NW. destruct (pile_length _); [|discriminate]. cbn [bind] in NW. destruct (pile_bottom _); [|discriminate]. cbn [bind] in NW.
    destruct (accept_model _ _ _ _); [|discriminate]. cbn [bind] in NW. injection NW as <-. auto. }
  destruct OB as [O1 O2]. destruct (blind_program solve pre ob PL) as [B1 B2]. unfold ob'. clear ob'. rewrite !program_app. set (ob1 := snd (program solve pre ob)) in *.
  assert (C1 : consistent m ob1) by (split; [exact CM|]; split; left; congruence). pose proof (program_consistent solve mid m ob1 MF C1) as C2. set (ob2 := snd (program solve mid ob1)) in *.
  rewrite !program_snd. destruct (read_nodes_consistent _ _ C2) as (_ & N3 & C3 & _).
  assert (S3 : snd (step solve ReadNodes ob2) = snd (read_nodes ob2)) by (cbn [step]; destruct (read_nodes ob2); reflexivity). rewrite S3. destruct (read_elems_consistent _ _ C3) as (_ & E4 & N4 & _).
  assert (S4 : forall q, snd (step solve ReadElems q) = snd (read_elems q)) by (intros q; cbn [step]; destruct (read_elems q); reflexivity). rewrite S4.
  destruct (program_keeps solve post (snd (read_elems (snd (read_nodes ob2)))) (nodes_of m) (elements_of m)) as [A D]; [congruence|exact E4|]. rewrite (read_cached _ _ A), (read_cached_elems _ _ D). split; [reflexivity|]. split; [reflexivity|].
  apply mesh_joined. apply (coordinates_nonempty _ _ CM).
Qed.
Print Assumptions C123_bare_partial.

(** In general they do not: the elements of a new model with soil are kept, its nodes are not made yet.  A finer mesh
    asked for right after construction gives more nodes, and no more elements. *)
Definition ex_soil : soil := mkSoil soil0 0 (-1).
Lemma ex_new : forall o, exists ob, new_in_soil rnd0 ch0 sort0 EulerBernoulli true 210 0 o ex_l ex_soil [-1] 2 = Ok (Some ob) /\
  ob_fields ob = mkFields ex_p (Some ex_soil) [-1] 2 EulerBernoulli true 210 0 o /\ ob_nodes ob = None /\ ob_elems ob = Some (elements_of mesh1) /\ ob_bcs ob = [] /\
  exists M, ob_made ob = Some M /\ forall n, nan_free n M = true.
Proof.
  intros o. destruct (C104_constructed rnd0 ch0 sort0 o ex_l 0 (-1) soil0 [-1] 2 ex_p 2 (-8) mesh1 storage_exists chance_exists sort_exists (site_exists o)) as (st & MD & CB & NF & _).
  eexists. split; [unfold new_in_soil; cbn [so_ground so_water so_layers ex_soil]; rewrite CB; reflexivity|]. cbn [ob_fields ob_nodes ob_elems ob_bcs ob_made b_pile b_mesh b_made]. split; [reflexivity|]. split; [reflexivity|]. split; [reflexivity|]. split; [reflexivity|].
  exists MD. split; [reflexivity|exact NF].
Qed.

Theorem C123_finer_refuted : exists sections s x c ob, new_in_soil rnd0 ch0 sort0 EulerBernoulli true 210 0 all_on sections s x c = Ok (Some ob) /\
  forall solve, let ob' := snd (program solve [ACoarse 1; ReadNodes] ob) in
  exists z es, fst (read_nodes ob') = Some z /\ fst (read_elems ob') = Some es /\ length z = 11%nat /\ length es = 6%nat /\
  fst (program solve [ACoarse 1; Solve] ob) = [Done; Unmatched].
Proof.
  destruct (ex_new all_on) as (ob & NW & FD & ON & OE & OB & M & OM & NF). exists ex_l, ex_soil, [(-1)%Q], 2, ob. split; [exact NW|]. intros solve. destruct ob as [f l n e M']. cbn [ob_fields ob_nodes ob_elems ob_bcs ob_made] in *. subst f l n e M'.
  set (m1 := match mesh ex_p (-8) (Some ex_ls) [(-1)%Q] 1 with Some m => m | None => [] end).
  assert (C1 : forall ob, ob_fields ob = mkFields ex_p (Some ex_soil) [(-1)%Q] 1 EulerBernoulli true 210 0 all_on -> coordinates (ob_fields ob) = Some m1) by (intros ob ->; vm_compute; reflexivity).
  assert (L1 : length (nodes_of m1) = 11%nat) by (vm_compute; reflexivity). assert (L2 : length (elements_of mesh1) = 6%nat) by (vm_compute; reflexivity).
  exists (nodes_of m1), (elements_of mesh1). rewrite !program_snd, !program_fst. cbn [program snd fst].
  match goal with |- context [step solve (ACoarse 1) ?q] => set (ob1 := snd (step solve (ACoarse 1) q)) end. assert (F1 : ob_fields ob1 = mkFields ex_p (Some ex_soil) [(-1)%Q] 1 EulerBernoulli true 210 0 all_on) by reflexivity.
  assert (N1 : ob_nodes ob1 = None) by reflexivity. assert (E1 : ob_elems ob1 = Some (elements_of mesh1)) by reflexivity. assert (B1 : ob_bcs ob1 = []) by reflexivity.
  specialize (C1 ob1 F1). clearbody ob1. clearbody m1. assert (RN : read_nodes ob1 = (Some (nodes_of m1), mkObj (ob_fields ob1) (ob_bcs ob1) (Some (nodes_of m1)) (ob_elems ob1) (ob_made ob1))) by (unfold read_nodes; rewrite N1, C1; reflexivity).
  cbn [step]. rewrite RN. cbn [snd]. split; [reflexivity|]. split; [unfold read_elems; cbn [ob_elems]; rewrite E1; reflexivity|]. split; [exact L1|]. split; [exact L2|].
  cbn [fst]. f_equal. f_equal. unfold solve_object. rewrite B1, RN, F1. cbn [fd_soil]. change (validate_bc [] Force) with (@Ok unit tt). change (validate_bc [] Displacement) with (@Ok unit tt). change (validate_bc [] Fixation) with (@Ok unit tt). cbn beta iota.
  unfold read_elems. cbn [ob_elems]. rewrite E1. cbn [fst]. rewrite L1, L2. reflexivity.
Qed.
Print Assumptions C123_finer_refuted.

(** The same number of nodes, elsewhere: a load at the new elevation -2 is put on node 2, between the elements that meet
    at -1, and the analysis goes on. *)
Theorem C123_moved_node_refuted : exists sections s x c ob, new_in_soil rnd0 ch0 sort0 EulerBernoulli true 210 0 all_on sections s x c = Ok (Some ob) /\
  forall solve, let ob' := snd (program solve [AX2mesh [-2]; Call (SetPointload (-2) (Some 5) None None); ReadNodes] ob) in
  exists z es t, fst (read_nodes ob') = Some z /\ fst (read_elems ob') = Some es /\ nth 2 z 0 == -2 /\ snd (nth 1 es (0, 0)) == -1 /\ fst (nth 2 es (0, 0)) == -1 /\
  global_forces z (ob_bcs ob') = Ok t /\ dof_vector t 7%nat == 5 /\ exists r, fst (step solve Solve ob') = Winkler r.
Proof.
  destruct (ex_new all_on) as (ob & NW & FD & ON & OE & OB & M & OM & NF). exists ex_l, ex_soil, [(-1)%Q], 2, ob. split; [exact NW|]. intros solve. destruct ob as [f l n e M']. cbn [ob_fields ob_nodes ob_elems ob_bcs ob_made] in *. subst f l n e M'.
  set (m1 := match mesh ex_p (-8) (Some ex_ls) [(-2)%Q] 2 with Some m => m | None => [] end).
  assert (C1 : forall ob, ob_fields ob = mkFields ex_p (Some ex_soil) [(-2)%Q] 2 EulerBernoulli true 210 0 all_on -> coordinates (ob_fields ob) = Some m1) by (intros ob ->; vm_compute; reflexivity).
  set (bcs := exec [] (SetPointload (-2) (Some 5) None None)).
  assert (T : exists t, global_forces (nodes_of m1) bcs = Ok t /\ dof_vector t 7%nat == 5) by (eexists; split; [vm_compute; reflexivity|vm_compute; reflexivity]). destruct T as (t & T1 & T2).
  assert (Z : nth 2 (nodes_of m1) 0 == -2) by (vm_compute; reflexivity). assert (Z1 : snd (nth 1 (elements_of mesh1) (0, 0)) == -1) by (vm_compute; reflexivity). assert (Z2 : fst (nth 2 (elements_of mesh1) (0, 0)) == -1) by (vm_compute; reflexivity).
  assert (L : length (nodes_of m1) = S (length (elements_of mesh1))) by (vm_compute; reflexivity).
  assert (V : forall k, validate_bc bcs k = Ok tt) by (intros []; vm_compute; reflexivity).
  exists (nodes_of m1), (elements_of mesh1), t. rewrite !program_snd. cbn [program snd].
  match goal with |- context [step solve ReadNodes ?q] => set (ob1 := q) end. assert (F1 : ob_fields ob1 = mkFields ex_p (Some ex_soil) [(-2)%Q] 2 EulerBernoulli true 210 0 all_on) by reflexivity.
  assert (N1 : ob_nodes ob1 = None) by reflexivity. assert (E1 : ob_elems ob1 = Some (elements_of mesh1)) by reflexivity. assert (B1 : ob_bcs ob1 = bcs) by reflexivity. assert (M1 : ob_made ob1 = Some M) by reflexivity.
  specialize (C1 ob1 F1). clearbody ob1. clearbody m1. clearbody bcs. assert (RN : read_nodes ob1 = (Some (nodes_of m1), mkObj (ob_fields ob1) (ob_bcs ob1) (Some (nodes_of m1)) (ob_elems ob1) (ob_made ob1))) by (unfold read_nodes; rewrite N1, C1; reflexivity).
  cbn [step]. rewrite RN. cbn [snd]. split; [reflexivity|]. split; [unfold read_elems; cbn [ob_elems]; rewrite E1; reflexivity|]. do 3 (split; [assumption|]). cbn [ob_bcs]. rewrite B1. split; [exact T1|]. split; [exact T2|].
  unfold solve_object, read_nodes. cbn [ob_bcs ob_nodes ob_fields ob_elems ob_made]. rewrite !V, F1, M1. cbn [fd_soil]. unfold read_elems. cbn [ob_elems]. rewrite E1. cbn [fst]. rewrite L, Nat.eqb_refl. cbn [negb]. eauto.
Qed.
Print Assumptions C123_moved_node_refuted.

(** ** C124: what an analysis of such a model uses *)
(** With the mesh read, neither the soil that was assigned nor the fineness shows in any answer. *)
Theorem C124_stale : forall solve prog prog' ob z es, ob_nodes ob = Some z -> ob_elems ob = Some es -> Forall2 alike prog prog' ->
  fst (program solve prog ob) = fst (program solve prog' ob).
Proof. intros solve prog prog' ob z es N E A. apply twins_program; [exact A|]. split; [reflexivity|]. split; [reflexivity|]. split; [reflexivity|]. exists z, es. auto. Qed.
Print Assumptions C124_stale.

(** Element type, material and springs that are switched off: the analysis is that of a model constructed with them. *)
Theorem C124_choices_partial : forall rnd ch sort ty circ E nu o sections s x c ob solve prog M es, new_in_soil rnd ch sort ty circ E nu o sections s x c = Ok (Some ob) ->
  ob_made ob = Some M -> ob_elems ob = Some es -> nan_free (length es) M = true ->
  forallb (fun o => negb (mesh_field o)) prog = true -> fewer (options_after prog o) o ->
  shows (soil_analysis rnd ch sort solve (type_after prog ty) circ (fst (material_after prog (E, nu))) (snd (material_after prog (E, nu))) (options_after prog o) sections (so_ground s) (so_water s) (so_layers s) x c (calls_in prog) 100)
    (fst (step solve Solve (snd (program solve prog ob)))).
Proof.
  intros rnd ch sort ty circ E nu o sections s x c ob solve prog M es NW OM OE NF PR FW. destruct (new_consistent _ _ _ _ _ _ _ _ _ _ _ _ _ NW) as (B & CB & CO & BM & BB & BF & _ & BE).
  assert (M = b_made B) by congruence. assert (es = elements_of (b_mesh B)) by congruence. subst M es.
  destruct (program_fields solve prog _ _ PR CO) as (A1 & A2 & A3 & A4). rewrite BF in A1. cbn [fd_pile fd_soil fd_x2mesh fd_coarse fd_type fd_circ fd_E fd_nu fd_on] in A1. rewrite BB in A2. rewrite BM in A3.
  destruct (construct_fewer rnd ch sort o (options_after prog o) sections s x c B FW CB) as (B' & CB' & P1 & P2 & CT).
  assert (LE : length (nodes_of (b_mesh B)) = S (length (elements_of (b_mesh B)))) by (apply mesh_joined; apply (coordinates_nonempty _ _ (proj1 CO))).
  cbn [step]. set (ob' := snd (program solve prog ob)) in *.
  pose proof (solve_answer solve (b_mesh B) ob' s (b_made B) A4 ltac:(rewrite A1; reflexivity) A3 LE) as H. cbn zeta in H. rewrite A1, A2 in H. cbn [fd_pile fd_soil fd_x2mesh fd_coarse fd_type fd_circ fd_E fd_nu fd_on] in H.
  rewrite (winkler_on_fewer _ _ _ _ _ _ _ _ _ _ _ _ _ CT NF) in H. rewrite <- P1, <- P2, winkler_on_built in H.
  unfold soil_analysis. rewrite CB'. cbn [bind]. exact H.
Qed.
Print Assumptions C124_choices_partial.

(** A model without soil that has not been looked at: every field is as if the model had been constructed with it. *)
Theorem C124_bare : forall ty circ E nu o sections x c ob solve prog sections' x' c', new_bare ty circ E nu o sections x c = Ok ob ->
  existsb looks prog = false -> let f := ob_fields (snd (program solve prog ob)) in
  fd_soil f = None -> fd_x2mesh f = x' -> fd_coarse f = c' -> make_pile sections' = Ok (fd_pile f) -> (exists ob2, new_bare ty circ E nu o sections' x' c' = Ok ob2) ->
  shows_beam (analyse solve (fd_type f) (fd_circ f) (fd_E f) (fd_nu f) sections' x' c' (calls_in prog)) (fst (step solve Solve (snd (program solve prog ob)))).
Proof.
  intros ty circ E nu o sections x c ob solve prog sections' x' c' NW PL f FS FX FC MP (ob2 & NW2).
  assert (OB : ob_nodes ob = None /\ ob_elems ob = None /\ ob_bcs ob = []).
  { unfold new_bare in NW. destruct (make_pile sections); [|discriminate]. cbn [bind] in NW. destruct (pile_length _); [|discriminate]. cbn [bind] in NW. destruct (pile_bottom _); [|discriminate]. cbn [bind] in NW.
    destruct (accept_model _ _ _ _); [|discriminate]. cbn [bind] in NW. injection NW as <-. auto. }
  destruct OB as (O1 & O2 & O3). destruct (blind_program solve prog ob PL) as [B1 B2]. destruct (program_field solve prog ob) as (_ & PB & _). rewrite O3 in PB.
  unfold new_bare in NW2. rewrite MP in NW2. cbn [bind] in NW2. unfold analyse. rewrite MP. cbn [bind]. destruct (pile_length (fd_pile f)) as [len|]; [|discriminate]. cbn [bind] in NW2 |- *. destruct (pile_bottom (fd_pile f)) as [b|] eqn:PBO; [|discriminate]. cbn [bind] in NW2 |- *.
  assert (PC : 0 < c').
  { unfold accept_model in NW2. destruct (Qltb c' (1#100)) eqn:QC; [discriminate|]. apply Qltb_false in QC. apply Qlt_le_trans with (1#100); [reflexivity|exact QC]. }
  destruct (accept_model len c' b None) as [[]|]; [|discriminate]. cbn [bind].
  assert (CF : coordinates f = mesh (fd_pile f) b None x' c') by (unfold coordinates; rewrite PBO, FS, FX, FC; reflexivity).
  destruct (mesh (fd_pile f) b None x' c') as [m|] eqn:EM.
  - rewrite <- beam_on_mesh, <- PB. cbn [step]. apply (solve_answer_beam solve m).
    + split; [exact CF|]. split; left; congruence.
    + exact FS.
    + apply mesh_joined. apply (coordinates_nonempty _ _ CF).
  - exfalso. destruct (MeshProofs.mesh_exists (fd_pile f) b None x' c' PC) as (m & EX). congruence.
Qed.
Print Assumptions C124_bare.

(** Springs that are switched on by an assignment are not there: the arrays hold zeros. *)
Theorem C124_switched_on_refuted :
  (forall rnd ch sort ty circ E nu o sections s x c ob solve prog, new_in_soil rnd ch sort ty circ E nu o sections s x c = Ok (Some ob) -> on_py o = false ->
     exists M, ob_made (snd (program solve prog ob)) = Some M /\ forall e j, g_py (springs_of M) e j = repeat (0, 0) 15) /\
  exists o sections s x c ob, new_in_soil rnd0 ch0 sort0 EulerBernoulli true 210 0 o sections s x c = Ok (Some ob) /\ on_py o = false /\
     forall solve, fd_on (ob_fields (snd (program solve [AOptions all_on] ob))) = all_on /\
     exists B, construct rnd0 ch0 sort0 all_on sections (so_ground s) (so_water s) (so_layers s) x c = Ok (Some B) /\ resists (g_py (springs_of (b_made B)) 5 1).
Proof.
  split.
  - intros rnd ch sort ty circ E nu o sections s x c ob solve prog NW OFF. destruct (new_consistent _ _ _ _ _ _ _ _ _ _ _ _ _ NW) as (B & CB & _ & BM & _). exists (b_made B). split; [rewrite (proj2 (proj2 (program_field solve prog ob))); exact BM|].
    destruct (construct_inv _ _ _ _ _ _ _ _ _ CB) as (b & ta & fp & sg & _ & _ & _ & _ & _ & _ & _ & _ & MS). unfold make_springs in MS. destruct (first_error _); [discriminate|]. injection MS as <-. intros e j.
    unfold springs_of. cbn [g_py]. match goal with |- context [create_springs ?st ?l] => change (create_springs st l) with (go st (work st l) no_springs) end. rewrite off_py; [reflexivity|exact OFF|reflexivity].
  - set (o := mkOptions false false true true true true). destruct (ex_new o) as (ob & NW & FD & _). exists o, ex_l, ex_soil, [(-1)%Q], 2, ob. split; [exact NW|]. split; [reflexivity|]. intros solve. split; [reflexivity|].
    pose proof (site_exists all_on) as SS. destruct (C104_constructed rnd0 ch0 sort0 all_on ex_l 0 (-1) soil0 [-1] 2 ex_p 2 (-8) mesh1 storage_exists chance_exists sort_exists SS) as (st & MD & CB & _).
    destruct (C104_springs_of_models _ _ _ _ _ _ _ _ _ _ _ _ _ _ _ storage_exists chance_exists sort_exists SS CB) as [OW _].
    eexists. split; [exact CB|]. assert (L : (5 < length (elements_of mesh1))%nat) by (vm_compute; lia).
    eapply layer_resists; [exact storage_exists|exact SS|exact L|apply OW; [exact L|lia]|reflexivity|].
    exists (mkSL (mkLayer (-4) (-20) 19) (Some lower0) (Some (Clay clay_w))), lower0. split; [left; reflexivity|]. split; [vm_compute; discriminate|]. split; [vm_compute; discriminate|]. split; [vm_compute; reflexivity|]. split; [reflexivity|]. intros X _. cbn. lra.
Qed.
Print Assumptions C124_switched_on_refuted.

(** A soil profile assigned to a model constructed without one: there are no springs and no results. *)
Theorem C124_added_soil_refuted : forall ty circ E nu o sections x c ob solve prog s, new_bare ty circ E nu o sections x c = Ok ob ->
  fd_soil (ob_fields (snd (program solve prog ob))) = Some s ->
  match fst (step solve Solve (snd (program solve prog ob))) with Winkler _ | Beam _ => False | _ => True end.
Proof.
  intros ty circ E nu o sections x c ob solve prog s NW FS.
  assert (OM : ob_made ob = None).
  { unfold new_bare in NW. destruct (make_pile sections); [|discriminate]. cbn [bind] in NW. destruct (pile_length _); [|discriminate]. cbn [bind] in NW. destruct (pile_bottom _); [|discriminate]. cbn [bind] in NW.
    destruct (accept_model _ _ _ _); [|discriminate]. cbn [bind] in NW. injection NW as <-. reflexivity. }
  destruct (program_field solve prog ob) as (_ & _ & PM). rewrite OM in PM. cbn [step]. unfold solve_object. rewrite FS, PM. destruct (validate_bc _ Force); [|exact Logic.I]. destruct (read_nodes _) as [[z|] ob1]; [|exact Logic.I].
  destruct (validate_bc _ Displacement); [|exact Logic.I]. destruct (read_elems ob1) as [[e|] ob2]; [|exact Logic.I]. cbn [fst]. destruct (negb _); exact Logic.I.
Qed.
Print Assumptions C124_added_soil_refuted.

(** ** Examples: the hypotheses are met *)
Example C123_example : exists ob, new_in_soil rnd0 ch0 sort0 EulerBernoulli true 210 0 all_on ex_l ex_soil [-1] 2 = Ok (Some ob) /\
  forall solve, let ob' := snd (program solve [AType Timoshenko; ReadNodes; ACoarse 1; AX2mesh []] ob) in
  exists z es, fst (read_nodes ob') = Some z /\ fst (read_elems ob') = Some es /\ joined z es /\ length es = 6%nat.
Proof.
  destruct (ex_new all_on) as (ob & NW & FD & ON & OE & _). exists ob. split; [exact NW|]. intros solve.
  destruct (C123_soil_partial _ _ _ _ _ _ _ _ _ _ _ _ ob solve [AType Timoshenko] [ACoarse 1; AX2mesh []] NW eq_refl) as (z & es & A & B & C & D). exists z, es. split; [exact A|]. split; [exact B|]. split; [exact C|].
  assert (es = elements_of mesh1) by congruence. subst es. vm_compute. reflexivity.
Qed.

Example C123_bare_example : exists ob, new_bare EulerBernoulli true 210 0 all_on ex_l [-1] 2 = Ok ob /\
  forall solve, exists m, coordinates (ob_fields (snd (program solve [ACoarse 1; APile ex_p true 200 0] ob))) = Some m /\ length m = 11%nat.
Proof. eexists. split; [vm_compute; reflexivity|]. intros solve. eexists. split; vm_compute; reflexivity. Qed.

Example C124_example : exists ob, new_in_soil rnd0 ch0 sort0 EulerBernoulli true 210 0 all_on ex_l ex_soil [-1] 2 = Ok (Some ob) /\
  forall solve, let prog := [AType Timoshenko; Call (SetPointload 2 (Some 5) None None); Solve; AMaterial 30 (1#5); AOptions (mkOptions true false true true false true)] in
  fewer (options_after prog all_on) all_on /\ type_after prog EulerBernoulli = Timoshenko /\ material_after prog (210, 0) = (30, 1#5) /\
  shows (soil_analysis rnd0 ch0 sort0 solve Timoshenko true 30 (1#5) (mkOptions true false true true false true) ex_l 0 (-1) soil0 [-1] 2 [SetPointload 2 (Some 5) None None] 100)
    (fst (step solve Solve (snd (program solve prog ob)))).
Proof.
  destruct (ex_new all_on) as (ob & NW & FD & ON & OE & OB & M & OM & NF). exists ob. split; [exact NW|]. intros solve prog. assert (FW : fewer (options_after prog all_on) all_on) by (repeat split; reflexivity).
  split; [exact FW|]. split; [reflexivity|]. split; [reflexivity|].
  exact (C124_choices_partial _ _ _ _ _ _ _ _ _ _ _ _ ob solve prog M _ NW OM OE (NF _) eq_refl FW).
Qed.

(** Another soil, and a finer mesh, assigned after an analysis: the second analysis repeats the first. *)
Example C124_stale_example : exists ob, new_in_soil rnd0 ch0 sort0 EulerBernoulli true 210 0 all_on ex_l ex_soil [-1] 2 = Ok (Some ob) /\
  forall solve s, let ob1 := snd (program solve [ReadNodes] ob) in
  fst (program solve [ASoil (Some s); ACoarse 1; Solve] ob1) = fst (program solve [ASoil (Some ex_soil); ACoarse 2; Solve] ob1).
Proof.
  destruct (ex_new all_on) as (ob & NW & FD & ON & OE & OB & M & OM & NF). exists ob. split; [exact NW|]. intros solve s ob1. destruct (new_consistent _ _ _ _ _ _ _ _ _ _ _ _ _ NW) as (B & _ & CO & _ & _ & _ & _ & BE).
  destruct (read_nodes_consistent _ _ CO) as (_ & N1 & _). eapply C124_stale with (z := nodes_of (b_mesh B)) (es := elements_of mesh1).
  - unfold ob1. rewrite program_snd. cbn [program snd step]. destruct (read_nodes ob). exact N1.
  - unfold ob1. rewrite program_snd. cbn [program snd step]. unfold read_nodes. destruct (ob_nodes ob); [exact OE|]. destruct (coordinates _); exact OE.
  - repeat constructor.
Qed.
