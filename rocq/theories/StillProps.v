(** C142: a pile pushed along itself only does not bend, and a pile pushed across itself only does not settle. *)
From Coq Require Import Reals List Bool Arith ZArith QArith Qabs Lia Lqa Setoid.
From Verif Require Import Base LinAlg BCModel PileModel MeshModel StressModel BeamModel BeamProofs SolveModel SolveSpec SolveProofs SpringModel SpringSpec SpringProofs SpringProper SpringWitness
  WinklerModel ResultModel SessionModel SessionWitness WholeModel StressProps FullModel FullProps ApartSpec ApartProofs ApartCalls ApartTables ApartProps StillProofs StillTables.
Import ListNotations.
Local Open Scope Q_scope.

(** ** Said without the model's matrices *)
(** The call of a setter asks for nothing, or for zero, across the pile (a support asks for nothing to move) *)
Definition none_or_zero (o : option Q) : Prop := o = None \/ exists q, o = Some q /\ q == 0.
Definition asks_nothing_across (c : call) : Prop :=
  match c with SetPointload _ y _ x | SetPointdisplacement _ y _ x => none_or_zero y /\ none_or_zero x | SetSupport _ _ _ _ => True end.
(** along it *)
Definition asks_nothing_along (c : call) : Prop :=
  match c with SetPointload _ _ z _ | SetPointdisplacement _ _ z _ => none_or_zero z | SetSupport _ _ _ _ => True end.
(** every pass of an analysis, its displacements and its forces are zero in the directions [D] *)
Definition nothing_moves (n : nat) (D : nat -> bool) (o : outcome) : Prop :=
  (forall v, In v (o_hist o) -> still n D v) /\ (forall d, o_d o = Some d -> still n D d) /\ (forall q, o_Q o = Some q -> still n D q).
(** rows of a table: (elevation, (along, across, rotation)) *)
Definition zero_along (r : Q * triple) : Prop := fst (fst (snd r)) == 0.
Definition zero_across (r : Q * triple) : Prop := snd (fst (snd r)) == 0 /\ snd (snd r) == 0.

Lemma nothing_of : forall o, none_or_zero o -> nothing o.
Proof. intros o [->|(q & -> & H)]; [exact Logic.I|exact H]. Qed.
Lemma across_requests : forall cs, Forall asks_nothing_across cs -> Forall (fun c => bc_still true true false (request c)) cs.
Proof.
  intros cs H. eapply Forall_impl; [|exact H]. intros [e y z x|e y z x|e y z x] C; cbn in C; try (left; reflexivity); right; destruct C as [Cy Cx]; cbn [request bc_x bc_y bc_z];
    (split; [intros _; apply nothing_of; exact Cx|split; [intros _; apply nothing_of; exact Cy|discriminate]]).
Qed.
Lemma along_requests : forall cs, Forall asks_nothing_along cs -> Forall (fun c => bc_still false false true (request c)) cs.
Proof.
  intros cs H. eapply Forall_impl; [|exact H]. intros [e y z x|e y z x|e y z x] C; cbn in C; try (left; reflexivity); right; cbn [request bc_x bc_y bc_z];
    (split; [discriminate|split; [discriminate|intros _; apply nothing_of; exact C]]).
Qed.

(** ** The loop *)
(** Whatever springs are attached (softening ones, springs that differ from element to element), in whatever number of passes. *)
Theorem C142_loop : forall solve M F U r mi o, solver_ok solve -> elements_apart M -> winkler_model solve M F U r mi = Ok o -> let n := SpringModel.size M in
  (still n across F -> still n across U -> nothing_moves n across o) /\ (still n along F -> still n along U -> nothing_moves n along o).
Proof.
  intros solve M F U r mi o SO EA H n. unfold winkler_model in H.
  split; intros HF HU; [destruct (winkler_still n across across_class solve _ SO (SpringModel.build M) F U (fun d k K => build_uncoupled M d k K EA) HF HU mi o H) as (A & B & C)
    |destruct (winkler_still n along along_class solve _ SO (SpringModel.build M) F U (fun d k K => build_uncoupled M d k K EA) HF HU mi o H) as (A & B & C)];
    (split; [intros v I; rewrite Forall_forall in A; apply A; exact I|split; [exact B|exact C]]).
Qed.
Print Assumptions C142_loop.

(** ** Whole programs, from the description of the site to the results *)
Theorem C142_program : forall rnd ch sort solve ty circ E nu o sections gr wt ys x c cs mi B r, solver_ok solve -> construct rnd ch sort o sections gr wt ys x c = Ok (Some B) ->
  soil_analysis rnd ch sort solve ty circ E nu o sections gr wt ys x c cs mi = Ok (Some r) -> let n := (3 * length (elements_of (b_mesh B)) + 3)%nat in
  (Forall asks_nothing_across cs -> nothing_moves n across r) /\ (Forall asks_nothing_along cs -> nothing_moves n along r).
Proof.
  intros rnd ch sort solve ty circ E nu o sections gr wt ys x c cs mi B r SO CB H n. unfold soil_analysis in H. rewrite CB in H. cbn [bind] in H.
  destruct (solve_parts _ _ _ _ _ _ _ _ _ _ H) as (tf & td & tr & ks & mc & A1 & A2 & A3 & A4 & A5 & A6). pose proof (elem_matrices_uncoupled _ _ _ _ _ _ _ A4) as UK.
  assert (EA : elements_apart (stiffness_model o (b_pile B) (b_mesh B) ks mc (springs_of (b_made B)))) by (intros e _; apply UK).
  destruct (C142_loop solve _ _ _ _ mi r SO EA A6) as [CA CL]. split; intros HC.
  - destruct across_mod as (M2 & M1 & M0). pose proof (run_still _ _ _ cs [] (across_requests cs HC) (Forall_nil _)) as RL.
    destruct (tables_still across true true false M2 M1 M0 (nodes_of (b_mesh B)) _ n _ _ RL A1 A2) as [T1 T2]. apply CA; assumption.
  - destruct along_mod as (M2 & M1 & M0). pose proof (run_still _ _ _ cs [] (along_requests cs HC) (Forall_nil _)) as RL.
    destruct (tables_still along false false true M2 M1 M0 (nodes_of (b_mesh B)) _ n _ _ RL A1 A2) as [T1 T2]. apply CL; assumption.
Qed.
Print Assumptions C142_program.

(** ** What is reported *)
Lemma rows_zero_across : forall t, rows_still across t -> Forall zero_across t.
Proof. intros t H. eapply Forall_impl; [|exact H]. intros [z [[a b] c]] (X & Y & Z). split; [apply Y|apply Z]; reflexivity. Qed.
Lemma rows_zero_along : forall t, rows_still along t -> Forall zero_along t.
Proof. intros t H. eapply Forall_impl; [|exact H]. intros [z [[a b] c]] (X & Y & Z). apply X. reflexivity. Qed.

(** The tables of displacements, of structural forces and of reactions, with soil or without *)
Theorem C142_reported : forall solve fr cs s w, solver_ok solve -> (2 <= length (fr_nodes fr))%nat -> (forall e, (e < length (fr_nodes fr) - 1)%nat -> uncoupled (fr_mech fr e)) ->
  solve_state solve fr {| st_bcs := run cs []; st_springs := s |} = Ok (Some w) ->
  (Forall asks_nothing_across cs -> (forall t, res_disp w = Some t -> Forall zero_across t) /\ (forall t, res_forces w = Some t -> Forall zero_across t) /\ Forall zero_across (res_reac w)) /\
  (Forall asks_nothing_along cs -> (forall t, res_disp w = Some t -> Forall zero_along t) /\ (forall t, res_forces w = Some t -> Forall zero_along t) /\ Forall zero_along (res_reac w)).
Proof.
  intros solve fr cs s w SO LN UK H. unfold solve_state in H. cbn [st_bcs st_springs] in H.
  destruct (global_forces _ _) as [tf|] eqn:EF; cbn [bind] in H; [|discriminate H]. destruct (global_disp _ _) as [td|] eqn:ED; cbn [bind] in H; [|discriminate H].
  destruct (global_restrained _ _) as [tr|] eqn:ER; cbn [bind] in H; [|discriminate H].
  assert (EA : elements_apart (as_model fr s)) by (intros e He; apply UK; exact He). assert (LZ : length (fr_nodes fr) = S (w_n (as_model fr s))) by (cbn [w_n as_model]; unfold fr_n; lia).
  split; intros HC.
  - destruct across_mod as (M2 & M1 & M0). pose proof (run_still _ _ _ cs [] (across_requests cs HC) (Forall_nil _)) as RL.
    destruct (tables_still across true true false M2 M1 M0 (fr_nodes fr) _ (SpringModel.size (as_model fr s)) _ _ RL EF ED) as [T1 T2].
    destruct (solve_model_still across across_class across_dm solve (as_model fr s) (fr_nodes fr) _ _ _ _ w SO EA LZ eq_refl T1 T2 H) as (X & Y & Z).
    split; [intros t E; apply rows_zero_across, X, E|]. split; [intros t E; apply rows_zero_across, Y, E|apply rows_zero_across, Z].
  - destruct along_mod as (M2 & M1 & M0). pose proof (run_still _ _ _ cs [] (along_requests cs HC) (Forall_nil _)) as RL.
    destruct (tables_still along false false true M2 M1 M0 (fr_nodes fr) _ (SpringModel.size (as_model fr s)) _ _ RL EF ED) as [T1 T2].
    destruct (solve_model_still along along_class along_dm solve (as_model fr s) (fr_nodes fr) _ _ _ _ w SO EA LZ eq_refl T1 T2 H) as (X & Y & Z).
    split; [intros t E; apply rows_zero_along, X, E|]. split; [intros t E; apply rows_zero_along, Y, E|apply rows_zero_along, Z].
Qed.
Print Assumptions C142_reported.

(** The table of mobilised resistance and the base reactions: a load along the pile mobilises nothing across it. *)
Lemma spring_disp_still : forall n d c e j, still (3 * n + 3) across d -> (e < n)%nat -> (j < 2)%nat -> c = 1%nat \/ c = 2%nat -> spring_disp n d c e j == 0.
Proof.
  intros n d c e j H He Hj Hc. unfold spring_disp. assert (LC : length (component n d c) = S n) by (unfold component; rewrite map_length, seq_length; reflexivity).
  assert (N : forall i, (i < S n)%nat -> nth i (component n d c) 0 == 0).
  { intros i Hi. unfold component. rewrite (nth_indep _ _ (d (3 * 0 + c)%nat)) by (fold (component n d c); lia). rewrite (map_nth (fun i => d (3 * i + c)%nat)). rewrite seq_nth by lia. apply H; [lia|].
    unfold across. rewrite Nat.add_0_l. replace (3 * i + c)%nat with (c + i * 3)%nat by lia. rewrite Nat.mod_add by lia. destruct Hc as [->| ->]; reflexivity. }
  destruct (Nat.eq_dec e (n - 1)) as [E|NE].
  - destruct j as [|[|j]]; [|subst e; rewrite last_spring_node by (auto; lia); apply N; lia|lia]. rewrite (own_node _ n) by (auto; lia). apply N; lia.
  - rewrite (own_node _ n) by (auto; lia). apply N; lia.
Qed.
Lemma product_0 : forall x k p, x == 0 -> Some (Qabs (x * k)) = Some p -> p == 0.
Proof. intros x k p Z E. assert (P : p = Qabs (x * k)) by congruence. rewrite P. clear E P. assert (Y : x * k == 0) by (rewrite Z; ring). transitivity (Qabs 0); [apply Qabs_wd; exact Y|reflexivity]. Qed.
Theorem C142_mobilised : forall solve M z a F U r w, solver_ok solve -> elements_apart M -> still (SpringModel.size M) across F -> still (SpringModel.size M) across U -> (1 <= w_n M)%nat ->
  solve_model solve M z (Some a) F U r = Ok (Some w) ->
  (exists t, res_mob w = Some t /\ Forall (fun m => (forall p, r_p m = Some p -> p == 0) /\ (forall p, r_m m = Some p -> p == 0)) t) /\
  (exists h hm, res_hb w = Some (h, hm) /\ forall q, h = Some q -> q == 0) /\ (exists m mm, res_mb w = Some (m, mm) /\ forall q, m = Some q -> q == 0).
Proof.
  intros solve M z a F U r w SO EA HF HU N1 H. unfold solve_model, winkler_result in H. destruct (winkler_model solve M F U r 100) as [o|] eqn:W; cbn [bind] in H; [|discriminate H].
  destruct (C142_loop solve M F U r 100 o SO EA W) as [CA _]. destruct (CA HF HU) as (_ & Sd & _). clear CA.
  destruct (result_of M z (a_py a) (a_mt a) (a_hb a) (a_mb a) o) as [y|] eqn:RO; cbn [bind] in H; [|discriminate H]. injection H as <-.
  unfold result_of in RO. destruct (springs_mob _ _ _ _ _) as [mob|] eqn:EM; cbn [bind] in RO; [|discriminate RO]. destruct (base_report _ (a_hb a)) as [[h hm]|] eqn:EH; cbn [bind] in RO; [|discriminate RO].
  destruct (base_report _ (a_mb a)) as [[m mm]|] eqn:EB; cbn [bind] in RO; [|discriminate RO]. injection RO as <-. cbn [res_mob res_hb res_mb].
  assert (SZ : SpringModel.size M = (3 * w_n M + 3)%nat) by (unfold SpringModel.size; lia).
  assert (BR : forall k c q x, (k = 1 \/ k = 2)%nat -> base_report (option_map (fun v : vec => v (SpringModel.size M - k)%nat) (o_d o)) c = Ok (q, x) -> forall p, q = Some p -> p == 0).
  { intros k c q x Hk BR p ->. destruct (o_d o) as [d|]; cbn [option_map base_report] in BR; [|discriminate BR]. unfold base_mobilised in BR.
    destruct (base_spring _ _ _) as [s|]; cbn [bind fst snd] in BR; [|discriminate BR]. injection BR as <- _.
    assert (Z : d (SpringModel.size M - k)%nat == 0). { apply (Sd d eq_refl); [lia|]. rewrite SZ. unfold across. replace (3 * w_n M + 3 - k)%nat with ((3 - k) + w_n M * 3)%nat by lia. rewrite Nat.mod_add by lia. destruct Hk as [->| ->]; reflexivity. }
    setoid_rewrite Z. change (Qabs 0) with 0. ring. }
  split; [|split].
  - exists mob. split; [reflexivity|]. apply Forall_forall. intros x I. unfold springs_mob in EM. destruct (o_d o) as [d|].
    + destruct (py_stiffness _ _ _ _) as [lp|]; cbn [bind] in EM; [|discriminate EM]. destruct (mt_stiffness _ _ _ _ _) as [lm|]; cbn [bind] in EM; [|discriminate EM]. injection EM as <-.
      apply in_map_iff in I. destruct I as ([e j] & <- & I). unfold spring_list in I. apply in_flat_map in I. destruct I as (e' & Ie & I). apply in_seq in Ie.
      assert (EJ : (e < w_n M)%nat /\ (j < 2)%nat) by (destruct I as [I|[I|[]]]; injection I as <- <-; lia). destruct EJ as [He Hj]. specialize (Sd d eq_refl). rewrite SZ in Sd.
      cbn [r_p r_m]. split; intros p E; [exact (product_0 _ _ p (spring_disp_still (w_n M) d 1 e j Sd He Hj (or_introl eq_refl)) E)|exact (product_0 _ _ p (spring_disp_still (w_n M) d 2 e j Sd He Hj (or_intror eq_refl)) E)].
    + injection EM as <-. apply in_map_iff in I. destruct I as ([e j] & <- & _). cbn [r_p r_m]. split; discriminate.
  - exists h, hm. split; [reflexivity|]. exact (BR 2%nat (a_hb a) h hm (or_intror eq_refl) EH).
  - exists m, mm. split; [reflexivity|]. exact (BR 1%nat (a_mb a) m mm (or_introl eq_refl) EB).
Qed.
Print Assumptions C142_mobilised.

(** ** The hypotheses are met *)
(** the site of C107_example under loads along the pile, and under loads across it *)
Definition pushed_down : list call := [SetPointload 0 None (Some (-5000)) None; SetPointdisplacement (-8) (Some 0) None None].
Definition pushed_aside : list call := [SetPointload 0 (Some 50) None (Some 30); SetSupport (-8) None (Some 1) None].
Example C142_example : Forall asks_nothing_across pushed_down /\ Forall asks_nothing_along pushed_aside /\ forall solve nu, solver_ok solve -> -(3#4) <= nu -> exists r r',
  soil_analysis rnd0 ch0 sort0 solve EulerBernoulli true 210 nu all_on ex_l 0 (-1) FullProps.soil0 [-1] 2 pushed_down 100 = Ok (Some r) /\
  soil_analysis rnd0 ch0 sort0 solve EulerBernoulli true 210 nu all_on ex_l 0 (-1) FullProps.soil0 [-1] 2 pushed_aside 100 = Ok (Some r').
Proof.
  assert (Z : forall q, q == 0 -> none_or_zero (Some q)) by (intros q H; right; eauto). assert (N : none_or_zero None) by (left; reflexivity).
  split; [constructor; [split; exact N|constructor; [split; [apply Z; reflexivity|exact N]|constructor]]|]. split; [constructor; [exact N|constructor; [exact Logic.I|constructor]]|]. intros solve nu SO PN.
  destruct C107_example as (_ & _ & _ & _ & _ & _ & RUN). destruct (RUN solve nu pushed_down 100%nat SO PN) as [r H]. destruct (RUN solve nu pushed_aside 100%nat SO PN) as [r' H']. eauto.
Qed.

(** a pile without soil, clamped at its head and pulled at its tip: it does move along itself *)
Definition pulled : list call := [SetSupport 0 (Some 1) (Some 1) (Some 1); SetPointload (-1) None (Some (-10)) None].
Definition bare_frame : frame := {| fr_nodes := [0; -(1)]; fr_mech := fun _ => mech0; fr_L := fun _ => 1; fr_mtc := fun _ => (0, 0, 0, 0); fr_soil := false;
  fr_lateral := true; fr_axial := true; fr_moment := false; fr_base_shear := false; fr_base_moment := false; fr_base_axial := true; fr_hb := py0; fr_mb := py0; fr_qz := tz0 |}.
Example C142_example_reported : forall s, Forall asks_nothing_across pulled /\ (forall e, (e < 1)%nat -> uncoupled (fr_mech bare_frame e)) /\
  exists w t row, solve_state gauss_solver bare_frame {| st_bcs := run pulled []; st_springs := s |} = Ok (Some w) /\ res_disp w = Some t /\ In row t /\ ~ zero_along row.
Proof.
  intros s. assert (N : none_or_zero None) by (left; reflexivity). split; [constructor; [exact Logic.I|constructor; [split; exact N|constructor]]|]. split; [intros e _; exact mech0_apart|].
  assert (A : match solve_state gauss_solver bare_frame {| st_bcs := run pulled []; st_springs := s |} with Ok (Some w) => match res_disp w with Some [a; b] => negb (Qeq_bool (fst (fst (snd b))) 0) | _ => false end | _ => false end = true) by (vm_compute; reflexivity).
  destruct (solve_state _ _ _) as [[w|]|]; try discriminate A. destruct (res_disp w) as [[|a [|b [|]]]|] eqn:E; try discriminate A. exists w, [a; b], b.
  split; [reflexivity|]. split; [exact E|]. split; [right; left; reflexivity|]. intros Z. unfold zero_along in Z. apply negb_true_iff in A. apply Qeq_bool_neq in A. apply A. exact Z.
Qed.
