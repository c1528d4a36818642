(** Lemmas for C123 and C124. *)
From Coq Require Import List Bool Arith ZArith QArith Reals Lia.
From Verif Require Import Base LinAlg BCModel PileModel MeshModel StressModel BeamModel SolveModel SpringModel WinklerModel CreateModel WholeModel FullModel EditModel EditSpec.
Import ListNotations.
Local Open Scope Q_scope.

(** ** The cached tables *)
Lemma read_cached : forall ob z, ob_nodes ob = Some z -> fst (read_nodes ob) = Some z.
Proof. intros ob z H. unfold read_nodes. rewrite H. reflexivity. Qed.
Lemma read_cached_elems : forall ob e, ob_elems ob = Some e -> fst (read_elems ob) = Some e.
Proof. intros ob z H. unfold read_elems. rewrite H. reflexivity. Qed.
Lemma step_keeps : forall solve o ob z e, ob_nodes ob = Some z -> ob_elems ob = Some e ->
  ob_nodes (snd (step solve o ob)) = Some z /\ ob_elems (snd (step solve o ob)) = Some e.
Proof.
  intros solve o ob z e N E. destruct o; cbn [step snd ob_nodes ob_elems]; auto.
  - unfold read_nodes. rewrite N. cbn. auto.
  - unfold read_elems. rewrite E. cbn. auto.
  - unfold solve_object, read_nodes, read_elems. rewrite N, E. destruct (validate_bc (ob_bcs ob) Force); [|auto].
    destruct (validate_bc (ob_bcs ob) Displacement); [|auto]. destruct (fd_soil (ob_fields ob)), (validate_bc (ob_bcs ob) Fixation); cbn; auto.
Qed.

Lemma program_snd : forall solve o l ob, snd (program solve (o :: l) ob) = snd (program solve l (snd (step solve o ob))).
Proof. intros. cbn [program]. destruct (step solve o ob) as [a ob1]. cbn [snd]. destruct (program solve l ob1). reflexivity. Qed.
Lemma program_fst : forall solve o l ob, fst (program solve (o :: l) ob) = fst (step solve o ob) :: fst (program solve l (snd (step solve o ob))).
Proof. intros. cbn [program]. destruct (step solve o ob) as [a ob1]. cbn [snd fst]. destruct (program solve l ob1). reflexivity. Qed.
Lemma program_app : forall solve l l' ob, snd (program solve (l ++ l') ob) = snd (program solve l' (snd (program solve l ob))).
Proof. induction l as [|o l IH]; intros l' ob; [reflexivity|]. rewrite <- app_comm_cons, !program_snd. apply IH. Qed.

Lemma program_keeps : forall solve l ob z e, ob_nodes ob = Some z -> ob_elems ob = Some e ->
  ob_nodes (snd (program solve l ob)) = Some z /\ ob_elems (snd (program solve l ob)) = Some e.
Proof.
  induction l as [|o l IH]; intros ob z e N E; [cbn; auto|]. rewrite program_snd. destruct (step_keeps solve o ob z e N E). apply IH; auto.
Qed.

(** As long as no field of the mesh is assigned to, tables come from the mesh of the present fields *)
Definition consistent (m : list Q) (ob : object) : Prop :=
  coordinates (ob_fields ob) = Some m /\ (ob_nodes ob = None \/ ob_nodes ob = Some (nodes_of m)) /\ (ob_elems ob = None \/ ob_elems ob = Some (elements_of m)).

Lemma read_nodes_consistent : forall m ob, consistent m ob ->
  fst (read_nodes ob) = Some (nodes_of m) /\ ob_nodes (snd (read_nodes ob)) = Some (nodes_of m) /\ consistent m (snd (read_nodes ob)) /\
  ob_fields (snd (read_nodes ob)) = ob_fields ob /\ ob_bcs (snd (read_nodes ob)) = ob_bcs ob /\ ob_made (snd (read_nodes ob)) = ob_made ob.
Proof.
  intros m ob (C & N & E). unfold read_nodes. destruct N as [N|N]; rewrite N.
  - rewrite C. cbn. unfold consistent. cbn. auto 10.
  - cbn. unfold consistent. auto 10.
Qed.
Lemma read_elems_consistent : forall m ob, consistent m ob ->
  fst (read_elems ob) = Some (elements_of m) /\ ob_elems (snd (read_elems ob)) = Some (elements_of m) /\ ob_nodes (snd (read_elems ob)) = ob_nodes ob /\ consistent m (snd (read_elems ob)) /\
  ob_fields (snd (read_elems ob)) = ob_fields ob /\ ob_bcs (snd (read_elems ob)) = ob_bcs ob /\ ob_made (snd (read_elems ob)) = ob_made ob.
Proof.
  intros m ob (C & N & E). unfold read_elems. destruct E as [E|E]; rewrite E.
  - rewrite C. cbn. unfold consistent. cbn. auto 10.
  - cbn. unfold consistent. auto 10.
Qed.

Lemma solve_consistent : forall solve m ob, consistent m ob -> let ob' := snd (solve_object solve ob) in
  consistent m ob' /\ ob_fields ob' = ob_fields ob /\ ob_bcs ob' = ob_bcs ob /\ ob_made ob' = ob_made ob.
Proof.
  intros solve m ob C. unfold solve_object. destruct (validate_bc (ob_bcs ob) Force); [|cbn; auto].
  destruct (read_nodes_consistent m ob C) as (R & _ & C1 & F1 & B1 & M1). destruct (read_nodes ob) as [z ob1]. cbn [fst snd] in *. subst z.
  destruct (read_elems_consistent m ob1 C1) as (R2 & _ & _ & C2 & F2 & B2 & M2). destruct (read_elems ob1) as [e ob2]. cbn [fst snd] in *. subst e.
  destruct (validate_bc (ob_bcs ob) Displacement), (fd_soil (ob_fields ob)), (validate_bc (ob_bcs ob) Fixation); cbn; repeat split; congruence || apply C1 || apply C2.
Qed.

Lemma step_consistent : forall solve o m ob, mesh_field o = false -> consistent m ob -> consistent m (snd (step solve o ob)).
Proof.
  intros solve o m ob F C. destruct o; try discriminate F; cbn [step snd].
  1-4: destruct C as (A & B & D); unfold consistent; cbn [ob_fields ob_nodes ob_elems]; split; auto.
  - pose proof (read_nodes_consistent m ob C) as (_ & _ & H & _). destruct (read_nodes ob). exact H.
  - pose proof (read_elems_consistent m ob C) as (_ & _ & _ & H & _). destruct (read_elems ob). exact H.
  - apply solve_consistent. exact C.
Qed.
Lemma program_consistent : forall solve l m ob, forallb (fun o => negb (mesh_field o)) l = true -> consistent m ob -> consistent m (snd (program solve l ob)).
Proof.
  induction l as [|o l IH]; intros m ob F C; [exact C|]. cbn [forallb] in F. apply andb_true_iff in F. destruct F as [F1 F2]. rewrite program_snd. apply IH; [exact F2|].
  apply step_consistent; [|exact C]. destruct (mesh_field o); [discriminate|reflexivity].
Qed.

(** Without looks nothing is cached *)
Lemma blind_step : forall solve o ob, looks o = false -> ob_nodes (snd (step solve o ob)) = ob_nodes ob /\ ob_elems (snd (step solve o ob)) = ob_elems ob.
Proof. intros solve o ob L. destruct o; try discriminate L; cbn; auto. Qed.
Lemma blind_program : forall solve l ob, existsb looks l = false -> ob_nodes (snd (program solve l ob)) = ob_nodes ob /\ ob_elems (snd (program solve l ob)) = ob_elems ob.
Proof.
  induction l as [|o l IH]; intros ob L; [cbn; auto|]. cbn [existsb] in L. apply orb_false_iff in L. destruct L as [L1 L2]. rewrite program_snd. destruct (IH (snd (step solve o ob)) L2) as [A B].
  destruct (blind_step solve o ob L1) as [C D]. split; congruence.
Qed.

(** ** Stale fields *)
Definition blur (f : fields) : list section * bool * elem_type * bool * Q * Q * options :=
  (fd_pile f, match fd_soil f with Some _ => true | None => false end, fd_type f, fd_circ f, fd_E f, fd_nu f, fd_on f).
Definition twins (a b : object) : Prop :=
  blur (ob_fields a) = blur (ob_fields b) /\ ob_bcs a = ob_bcs b /\ ob_made a = ob_made b /\
  exists z e, ob_nodes a = Some z /\ ob_nodes b = Some z /\ ob_elems a = Some e /\ ob_elems b = Some e.

Lemma twins_solve : forall solve a b, twins a b -> solve_object solve a = (fst (solve_object solve b), a).
Proof.
  intros solve a b (F & B & M & z & e & N1 & N2 & E1 & E2). unfold solve_object, read_nodes, read_elems. rewrite N1, N2, E1, E2, B, M.
  unfold blur in F. injection F as F1 F2 F3 F4 F5 F6 F7. rewrite F1, F3, F4, F5, F6, F7. destruct (validate_bc (ob_bcs b) Force); [|reflexivity].
  destruct (validate_bc (ob_bcs b) Displacement); [|reflexivity].
  destruct (fd_soil (ob_fields a)), (fd_soil (ob_fields b)); try discriminate F2; destruct (validate_bc (ob_bcs b) Fixation); try reflexivity; rewrite E1, E2; reflexivity.
Qed.
Lemma twins_sym : forall a b, twins a b -> twins b a.
Proof. intros a b (F & B & M & z & e & N1 & N2 & E1 & E2). split; [auto|]. split; [auto|]. split; [auto|]. exists z, e. auto. Qed.

Lemma twins_step : forall solve o o' a b, alike o o' -> twins a b ->
  fst (step solve o a) = fst (step solve o' b) /\ twins (snd (step solve o a)) (snd (step solve o' b)).
Proof.
  intros solve o o' a b AL T. pose proof T as (F & B & M & z & e & N1 & N2 & E1 & E2).
  assert (K : forall f f' bc bc' , blur f = blur f' -> bc = bc' -> twins (mkObj f bc (ob_nodes a) (ob_elems a) (ob_made a)) (mkObj f' bc' (ob_nodes b) (ob_elems b) (ob_made b))).
  { intros. split; [assumption|]. split; [assumption|]. split; [exact M|]. exists z, e. auto. }
  pose proof F as F'. unfold blur in F'. injection F' as F1 F2 F3 F4 F5 F6 F7.
  destruct AL as [o|s s'|x x'|c c']; [destruct o|..]; cbn [step fst snd]; try (split; [reflexivity|]; apply K; [unfold blur; cbn; congruence|congruence]).
  - unfold read_nodes. rewrite N1, N2. cbn. auto.
  - unfold read_elems. rewrite E1, E2. cbn. auto.
  - rewrite (twins_solve solve a b T), (twins_solve solve b a (twins_sym _ _ T)). cbn [fst snd]. rewrite (twins_solve solve a b T). cbn [fst]. auto.
Qed.

Lemma twins_program : forall solve l l' a b, Forall2 alike l l' -> twins a b -> fst (program solve l a) = fst (program solve l' b).
Proof.
  intros solve l l' a b H. revert a b. induction H as [|o o' l l' AL H IH]; intros a b T; [reflexivity|]. rewrite !program_fst. destruct (twins_step solve o o' a b AL T) as [E T']. rewrite E. f_equal. apply IH. exact T'.
Qed.

(** ** Springs that are switched off *)
Lemma first_error_none : forall l, first_error l = None <-> forall v, In v l -> exists r, v = Ok r.
Proof.
  induction l as [|v l IH]; split; intros H.
  - intros v [].
  - reflexivity.
  - intros w [<-|I]; destruct v; cbn [first_error] in H; try discriminate; [eauto|]. apply IH; auto.
  - destruct (H v (or_introl eq_refl)) as (r & ->). cbn [first_error]. apply IH. intros; apply H; right; auto.
Qed.

Section Fewer.
Variables (st st' : setting).
(** Two settings that differ in the options only *)
Hypothesis SA : shaft_args st' = shaft_args st.
Hypothesis BA : base_args st' = base_args st.
Hypothesis TI : tip_in st' = tip_in st.
Hypothesis EL : elems st' = elems st.

Definition go (s : setting) (l : list (@slayer stored_value * nat)) (m : @made stored_value) : made := fold_left (fun m li => visit s li m) l m.
Let go_cons : forall s li l m, go s (li :: l) m = go s l (visit s li m).
Proof using. reflexivity. Qed.

Lemma work_same : forall layers : list (@slayer stored_value), work st' layers = work st layers.
Proof using EL. intros. unfold work. rewrite EL. reflexivity. Qed.

Ltac walk x := induction x as [|[[ly la ax] i] x IH]; intros m m' E; [exact E|]; rewrite !go_cons; apply IH; unfold visit; cbn [s_layer s_lat s_ax].

Lemma same_py : distributed_lateral st' = distributed_lateral st -> forall l m m', m_py m' = m_py m -> m_py (go st' l m') = m_py (go st l m).
Proof using SA. intros D. intros l. walk l. destruct la, ax; cbn [m_py]; rewrite ?D, ?E, ?SA; reflexivity. Qed.
Lemma same_mt : distributed_moment st' = distributed_moment st -> forall l m m', m_mt m' = m_mt m -> m_mt (go st' l m') = m_mt (go st l m).
Proof using SA. intros D. intros l. walk l. destruct la, ax; cbn [m_mt]; rewrite ?D, ?E, ?SA; reflexivity. Qed.
Lemma same_tz : distributed_axial st' = distributed_axial st -> forall l m m', m_tz m' = m_tz m -> m_tz (go st' l m') = m_tz (go st l m).
Proof using SA. intros D. intros l. walk l. destruct la, ax; cbn [m_tz]; rewrite ?D, ?E, ?SA; reflexivity. Qed.
Lemma same_hb : base_shear st' = base_shear st -> forall l m m', m_hb m' = m_hb m -> m_hb (go st' l m') = m_hb (go st l m).
Proof using BA TI. intros D. intros l. walk l. destruct la, ax; cbn [m_hb]; rewrite ?D, ?E, ?BA, ?TI; reflexivity. Qed.
Lemma same_mb : base_moment st' = base_moment st -> forall l m m', m_mb m' = m_mb m -> m_mb (go st' l m') = m_mb (go st l m).
Proof using BA TI. intros D. intros l. walk l. destruct la, ax; cbn [m_mb]; rewrite ?D, ?E, ?BA, ?TI; reflexivity. Qed.
Lemma same_qz : base_axial st' = base_axial st -> forall l m m', m_qz m' = m_qz m -> m_qz (go st' l m') = m_qz (go st l m).
Proof using BA TI. intros D. intros l. walk l. destruct la, ax; cbn [m_qz]; rewrite ?D, ?E, ?BA, ?TI; reflexivity. Qed.
End Fewer.

Section Off.
Variable st : setting.
Ltac walk x := induction x as [|[[ly la ax] i] x IH]; intros m E; [exact E|]; unfold go; cbn [fold_left]; apply IH; unfold visit; cbn [s_layer s_lat s_ax].
Lemma off_py : distributed_lateral st = false -> forall l m, (forall e j, m_py m e j = None) -> forall e j, m_py (go st l m) e j = None.
Proof using. intros D. intros l. walk l. destruct la, ax; cbn [m_py]; rewrite ?D, ?andb_false_r; exact E. Qed.
Lemma off_mt : distributed_moment st = false -> forall l m, (forall e j, m_mt m e j = None) -> forall e j, m_mt (go st l m) e j = None.
Proof using. intros D. intros l. walk l. destruct la, ax; cbn [m_mt]; rewrite ?D, ?andb_false_r; exact E. Qed.
Lemma off_tz : distributed_axial st = false -> forall l m, (forall e j, m_tz m e j = None) -> forall e j, m_tz (go st l m) e j = None.
Proof using. intros D. intros l. walk l. destruct la, ax; cbn [m_tz]; rewrite ?D; exact E. Qed.
Lemma off_hb : base_shear st = false -> forall l m, m_hb m = None -> m_hb (go st l m) = None.
Proof using. intros D. intros l. walk l. destruct la, ax; cbn [m_hb]; rewrite ?D, ?andb_false_r; exact E. Qed.
Lemma off_mb : base_moment st = false -> forall l m, m_mb m = None -> m_mb (go st l m) = None.
Proof using. intros D. intros l. walk l. destruct la, ax; cbn [m_mb]; rewrite ?D, ?andb_false_r; exact E. Qed.
Lemma off_qz : base_axial st = false -> forall l m, m_qz m = None -> m_qz (go st l m) = None.
Proof using. intros D. intros l. walk l. destruct la, ax; cbn [m_qz]; rewrite ?D, ?andb_false_r; exact E. Qed.
End Off.

(** What changes in the springs when options are switched off *)
Definition part {A : Type} (b : bool) (a' a none : A) : Prop := if b then a' = a else a' = none.
Definition cut (o' : options) (M' M : @made stored_value) : Prop :=
  (if on_py o' then m_py M' = m_py M else forall e j, m_py M' e j = None) /\ (if on_mt o' then m_mt M' = m_mt M else forall e j, m_mt M' e j = None) /\
  (if on_tz o' then m_tz M' = m_tz M else forall e j, m_tz M' e j = None) /\ part (on_hb o') (m_hb M') (m_hb M) None /\ part (on_mb o') (m_mb M') (m_mb M) None /\ part (on_qz o') (m_qz M') (m_qz M) None.

Section Cut.
Variables (o o' : options) (p : list section) (b : Q) (rows : list (Q * section)) (gr wt : Q) (ls : list layer) (m : list Q) (sg : list nanQ * list nanQ).
Hypothesis FW : fewer o' o.
Let st := setting_of o p b rows gr wt ls m sg.
Let st' := setting_of o' p b rows gr wt ls m sg.

Lemma cut_springs : forall layers, cut o' (create_springs st' layers) (create_springs st layers).
Proof using FW.
  intros layers. destruct FW as (F1 & F2 & F3 & F4 & F5 & F6).
  assert (WS : work st' layers = work st layers) by reflexivity.
  unfold create_springs. rewrite WS. generalize (work st layers). intros l. change (cut o' (go st' l no_springs) (go st l no_springs)). unfold cut, part.
  assert (A1 : shaft_args st' = shaft_args st) by reflexivity. assert (A2 : base_args st' = base_args st) by reflexivity. assert (A3 : tip_in st' = tip_in st) by reflexivity.
  repeat split.
  - destruct (on_py o') eqn:E. { apply same_py; auto. cbn. rewrite E. symmetry; auto. } apply off_py; auto.
  - destruct (on_mt o') eqn:E. { apply same_mt; auto. cbn. rewrite E. symmetry; auto. } apply off_mt; auto.
  - destruct (on_tz o') eqn:E. { apply same_tz; auto. cbn. rewrite E. symmetry; auto. } apply off_tz; auto.
  - destruct (on_hb o') eqn:E. { apply same_hb; auto. cbn. rewrite E. symmetry; auto. } apply off_hb; auto.
  - destruct (on_mb o') eqn:E. { apply same_mb; auto. cbn. rewrite E. symmetry; auto. } apply off_mb; auto.
  - destruct (on_qz o') eqn:E. { apply same_qz; auto. cbn. rewrite E. symmetry; auto. } apply off_qz; auto.
Qed.

Lemma cut_calls : forall li v, In v (calls_of st' li) -> In v (@calls_of stored_value st li).
Proof using FW.
  intros [[ly la ax] i] v. destruct FW as (F1 & F2 & F3 & F4 & F5 & F6). unfold calls_of. cbn [s_layer s_lat s_ax].
  assert (A1 : shaft_args st' = shaft_args st) by reflexivity. assert (A2 : base_args st' = base_args st) by reflexivity. assert (A3 : tip_in st' = tip_in st) by reflexivity. rewrite A1, A2, A3.
  intros I. apply in_app_iff in I. apply in_app_iff. destruct I as [I|I]; [left; destruct ax as [ax|]|right; destruct la as [la|]]; try exact I.
  - apply in_app_iff in I. apply in_app_iff. change (distributed_axial st') with (on_tz o') in I. change (base_axial st') with (on_qz o') in I. change (distributed_axial st) with (on_tz o). change (base_axial st) with (on_qz o).
    destruct I as [I|I]; [left|right].
    + destruct (on_tz o'); [|destruct I]. rewrite F5 by reflexivity. exact I.
    + destruct (on_qz o'); [|rewrite andb_false_r in I; destruct I]. rewrite F6 by reflexivity. exact I.
  - change (distributed_lateral st') with (on_py o') in I. change (distributed_moment st') with (on_mt o') in I. change (base_shear st') with (on_hb o') in I. change (base_moment st') with (on_mb o') in I.
    change (distributed_lateral st) with (on_py o). change (distributed_moment st) with (on_mt o). change (base_shear st) with (on_hb o). change (base_moment st) with (on_mb o).
    rewrite !in_app_iff in I |- *. destruct I as [I|[I|[I|I]]].
    + left. destruct (on_py o'); [|rewrite andb_false_r in I; destruct I]. rewrite F1 by reflexivity. exact I.
    + right. left. destruct (on_mt o'); [|rewrite andb_false_r in I; destruct I]. rewrite F2 by reflexivity. exact I.
    + right. right. left. destruct (on_hb o'); [|rewrite !andb_false_r in I; destruct I]. rewrite F3 by reflexivity. exact I.
    + right. right. right. destruct (on_mb o'); [|rewrite !andb_false_r in I; destruct I]. rewrite F4 by reflexivity. exact I.
Qed.

Lemma cut_made : forall layers M, make_springs st layers = Ok M -> exists M', make_springs st' layers = Ok M' /\ cut o' M' M.
Proof using FW.
  intros layers M. unfold make_springs. destruct (first_error (flat_map (calls_of st) (work st layers))) eqn:E; [discriminate|]. intros H. injection H as <-.
  assert (E' : first_error (flat_map (calls_of st') (work st' layers)) = None).
  { apply first_error_none. intros v I. apply (proj1 (first_error_none _) E). apply in_flat_map in I. destruct I as (li & I1 & I2). apply in_flat_map. exists li. split; [exact I1|]. apply cut_calls. exact I2. }
  rewrite E'. eexists. split; [reflexivity|]. apply cut_springs.
Qed.
End Cut.

Lemma known_none : forall A (x : A), known (Some x) = true.
Proof. reflexivity. Qed.
Lemma cut_nan : forall o' n M' M, cut o' M' M -> nan_free n M = true -> nan_free n M' = true.
Proof.
  intros o' n M' M (C1 & C2 & C3 & C4 & C5 & C6) H. unfold nan_free in *. unfold part in *. apply andb_true_iff in H. destruct H as [H H4]. apply andb_true_iff in H. destruct H as [H H3]. apply andb_true_iff in H. destruct H as [H1 H2].
  rewrite !andb_true_iff. repeat split.
  - rewrite forallb_forall in *. intros e I. specialize (H1 e I). rewrite forallb_forall in *. intros j J. specialize (H1 j J). rewrite !andb_true_iff in *. destruct H1 as [[A1 A2] A3]. repeat split.
    + destruct (on_py o'); rewrite C1; auto.
    + destruct (on_mt o'); rewrite C2; auto.
    + destruct (on_tz o'); rewrite C3; auto.
  - destruct (on_hb o'); rewrite C4; auto.
  - destruct (on_mb o'); rewrite C5; auto.
  - destruct (on_qz o'); rewrite C6; auto.
Qed.
Lemma cut_same : forall o' M' M, cut o' M' M ->
  when_on (on_py o') (g_py (springs_of M')) = when_on (on_py o') (g_py (springs_of M)) /\ when_on (on_mt o') (g_mt (springs_of M')) = when_on (on_mt o') (g_mt (springs_of M)) /\
  when_on (on_tz o') (g_tz (springs_of M')) = when_on (on_tz o') (g_tz (springs_of M)) /\ when_on (on_hb o') (g_hb (springs_of M')) = when_on (on_hb o') (g_hb (springs_of M)) /\
  when_on (on_mb o') (g_mb (springs_of M')) = when_on (on_mb o') (g_mb (springs_of M)) /\ when_on (on_qz o') (g_qz (springs_of M')) = when_on (on_qz o') (g_qz (springs_of M)).
Proof.
  intros o' M' M (C1 & C2 & C3 & C4 & C5 & C6). unfold part, springs_of in *. cbn [g_py g_mt g_tz g_hb g_mb g_qz]. unfold when_on. repeat split.
  - destruct (on_py o'); [rewrite C1|]; reflexivity.
  - destruct (on_mt o'); [rewrite C2|]; reflexivity.
  - destruct (on_tz o'); [rewrite C3|]; reflexivity.
  - destruct (on_hb o'); [rewrite C4|]; reflexivity.
  - destruct (on_mb o'); [rewrite C5|]; reflexivity.
  - destruct (on_qz o'); [rewrite C6|]; reflexivity.
Qed.

(** ** The construction *)
Definition begun (rnd : R -> Q) (ch : chance) (sort : list (Q * section) -> list (Q * section)) (o : options) (sections : list section) (s : soil) (x : list Q) (c : Q) (p : list section) (m : list Q) (M : @made stored_value) (b : Q) (ta fp : Q) (sg : list nanQ * list nanQ) : Prop :=
  make_pile sections = Ok p /\ make_profile (so_ground s) (map y_layer (so_layers s)) = Ok (map y_layer (so_layers s)) /\ (exists len, pile_length p = Ok len /\ accept_model len c b (Some (profile_bottom (so_ground s) (map y_layer (so_layers s)))) = Ok tt) /\
  pile_bottom p = Ok b /\ mesh p b (Some (map y_layer (so_layers s))) x c = Some m /\ stress (map y_layer (so_layers s)) (so_ground s) (so_water s) (elements_of m) = Ok sg /\ tip_area p = Ok ta /\ tip_footprint p = Ok fp /\
  make_springs (setting_of o p b (sort (data_rows p)) (so_ground s) (so_water s) (map y_layer (so_layers s)) m sg) (map (slayer_of rnd ch ta fp) (so_layers s)) = Ok M.

Lemma make_profile_self : forall g l r, make_profile g l = Ok r -> r = l.
Proof. intros g l r. unfold make_profile. destruct (layers_down l); [discriminate|]. destruct (negb _); [discriminate|]. destruct (PileModel.stacked _); [|discriminate]. congruence. Qed.

Lemma construct_inv : forall rnd ch sort o sections s x c B, construct rnd ch sort o sections (so_ground s) (so_water s) (so_layers s) x c = Ok (Some B) ->
  exists b ta fp sg, begun rnd ch sort o sections s x c (b_pile B) (b_mesh B) (b_made B) b ta fp sg.
Proof.
  intros rnd ch sort o sections s x c B. unfold construct.
  destruct (make_pile sections) as [p|] eqn:E1; [|discriminate]. cbn [bind]. destruct (make_profile _ _) as [ls|] eqn:E2; [|discriminate]. pose proof (make_profile_self _ _ _ E2). subst ls. cbn [bind].
  destruct (pile_length p) as [len|] eqn:E3; [|discriminate]. cbn [bind]. destruct (pile_bottom p) as [b|] eqn:E4; [|discriminate]. cbn [bind]. destruct (accept_model _ _ _ _) as [[]|] eqn:E5; [|discriminate]. cbn [bind].
  destruct (mesh _ _ _ _ _) as [m|] eqn:E6; [|discriminate]. destruct (stress _ _ _ _) as [sg|] eqn:E7; [|discriminate]. cbn [bind]. destruct (tip_area p) as [ta|] eqn:E8; [|discriminate]. cbn [bind].
  destruct (tip_footprint p) as [fp|] eqn:E9; [|discriminate]. cbn [bind]. destruct (make_springs _ _) as [M|] eqn:E10; [|discriminate]. cbn [bind]. intros H. injection H as <-. cbn [b_pile b_mesh b_made].
  exists b, ta, fp, sg. unfold begun. eauto 12.
Qed.
Lemma construct_of : forall rnd ch sort o sections s x c p m M b ta fp sg, begun rnd ch sort o sections s x c p m M b ta fp sg ->
  exists st, construct rnd ch sort o sections (so_ground s) (so_water s) (so_layers s) x c = Ok (Some (mkBuilt p m st M)).
Proof.
  intros rnd ch sort o sections s x c p m M b ta fp sg (E1 & E2 & (len & E3 & E5) & E4 & E6 & E7 & E8 & E9 & E10). unfold construct.
  rewrite E1. cbn [bind]. rewrite E2. cbn [bind]. rewrite E3. cbn [bind]. rewrite E4. cbn [bind]. rewrite E5. cbn [bind]. rewrite E6, E7. cbn [bind]. rewrite E8. cbn [bind]. rewrite E9. cbn [bind]. rewrite E10. cbn [bind]. eauto.
Qed.

(** A model with fewer springs is constructed as well, with the same mesh *)
Lemma construct_fewer : forall rnd ch sort o o' sections s x c B, fewer o' o -> construct rnd ch sort o sections (so_ground s) (so_water s) (so_layers s) x c = Ok (Some B) ->
  exists B', construct rnd ch sort o' sections (so_ground s) (so_water s) (so_layers s) x c = Ok (Some B') /\ b_pile B' = b_pile B /\ b_mesh B' = b_mesh B /\ cut o' (b_made B') (b_made B).
Proof.
  intros rnd ch sort o o' sections s x c B FW H. destruct (construct_inv _ _ _ _ _ _ _ _ _ H) as (b & ta & fp & sg & E1 & E2 & E3 & E4 & E6 & E7 & E8 & E9 & E10).
  destruct (cut_made o o' _ _ _ _ _ _ _ _ FW _ _ E10) as (M' & E10' & C).
  destruct (construct_of rnd ch sort o' sections s x c (b_pile B) (b_mesh B) M' b ta fp sg) as (st & H').
  { unfold begun. auto 12. }
  eexists. split; [exact H'|]. cbn. auto.
Qed.

(** ** The analysis *)
Lemma beam_on_mesh : forall solve ty circ E nu p m l, beam_on solve ty circ E nu p (nodes_of m) (elements_of m) l = beam_tables solve ty circ E nu p m l.
Proof. reflexivity. Qed.
Lemma winkler_on_built : forall solve ty circ E nu o B l mi, winkler_on solve ty circ E nu o (b_pile B) (nodes_of (b_mesh B)) (elements_of (b_mesh B)) (b_made B) l mi = solve_built solve ty circ E nu o B l mi.
Proof. reflexivity. Qed.
Lemma winkler_on_fewer : forall solve ty circ E nu o' p z es M M' l mi, cut o' M' M -> nan_free (length es) M = true ->
  winkler_on solve ty circ E nu o' p z es M l mi = winkler_on solve ty circ E nu o' p z es M' l mi.
Proof.
  intros solve ty circ E nu o' p z es M M' l mi C N. unfold winkler_on. rewrite N, (cut_nan o' _ _ _ C N). destruct (cut_same _ _ _ C) as (-> & -> & -> & -> & -> & ->). reflexivity.
Qed.

(** The fields after a program that leaves pile, soil and mesh alone *)
Lemma program_fields : forall solve l m ob, forallb (fun o => negb (mesh_field o)) l = true -> consistent m ob ->
  let f := ob_fields ob in let ob' := snd (program solve l ob) in
  ob_fields ob' = mkFields (fd_pile f) (fd_soil f) (fd_x2mesh f) (fd_coarse f) (type_after l (fd_type f)) (fd_circ f) (fst (material_after l (fd_E f, fd_nu f))) (snd (material_after l (fd_E f, fd_nu f))) (options_after l (fd_on f)) /\
  ob_bcs ob' = run (calls_in l) (ob_bcs ob) /\ ob_made ob' = ob_made ob /\ consistent m ob'.
Proof.
  induction l as [|o l IH]; intros m ob F C; cbn zeta.
  - cbn. destruct (ob_fields ob). cbn. auto.
  - cbn [forallb] in F. apply andb_true_iff in F. destruct F as [F1 F2]. assert (MF : mesh_field o = false) by (destruct (mesh_field o); [discriminate|reflexivity]).
    rewrite program_snd. pose proof (step_consistent solve o m ob MF C) as C1. destruct (IH m (snd (step solve o ob)) F2 C1) as (A & B & D & G). rewrite A, B, D. clear A B D IH.
    unfold type_after, options_after, calls_in, run. cbn [fold_left flat_map]. rewrite fold_left_app.
    assert (X : ob_fields (snd (step solve o ob)) = set_field o (ob_fields ob) /\ ob_bcs (snd (step solve o ob)) = fold_left exec (match o with Call c => [c] | _ => [] end) (ob_bcs ob) /\ ob_made (snd (step solve o ob)) = ob_made ob).
    { destruct o; try discriminate MF; cbn [step snd ob_fields ob_bcs ob_made set_field fold_left]; auto.
      - pose proof (read_nodes_consistent m ob C) as (_ & _ & _ & H). destruct (read_nodes ob). exact H.
      - pose proof (read_elems_consistent m ob C) as (_ & _ & _ & _ & H). destruct (read_elems ob). exact H.
      - apply (solve_consistent solve m ob C). }
    destruct X as (-> & -> & ->). split; [|auto]. destruct o; try discriminate MF; cbn; reflexivity.
Qed.

Lemma validated : forall l k, validate_bc l k = Ok tt \/ validate_bc l k = Err ValueError.
Proof. intros. unfold validate_bc. destruct (_ || _); auto. Qed.

(** Solve on a model with soil whose tables agree *)
Lemma solve_answer : forall solve m ob s M, consistent m ob -> fd_soil (ob_fields ob) = Some s -> ob_made ob = Some M -> length (nodes_of m) = S (length (elements_of m)) ->
  let f := ob_fields ob in shows (winkler_on solve (fd_type f) (fd_circ f) (fd_E f) (fd_nu f) (fd_on f) (fd_pile f) (nodes_of m) (elements_of m) M (ob_bcs ob) 100) (fst (solve_object solve ob)).
Proof.
  intros solve m ob s M C SO MA LE. cbn zeta. unfold solve_object. rewrite SO, MA.
  destruct (read_nodes_consistent m ob C) as (R & _ & C1 & F1 & B1 & M1). destruct (read_nodes ob) as [z ob1]. cbn [fst snd] in *. subst z.
  destruct (read_elems_consistent m ob1 C1) as (R2 & _ & _ & C2 & F2 & B2 & M2). destruct (read_elems ob1) as [e ob2]. cbn [fst snd] in *. subst e.
  assert (V : forall k e, validate_bc (ob_bcs ob) k = Err e -> e = ValueError) by (intros k e H; destruct (validated (ob_bcs ob) k); congruence).
  destruct (validate_bc (ob_bcs ob) Force) as [u|e] eqn:E1.
  - destruct (validate_bc (ob_bcs ob) Displacement) as [u2|e] eqn:E2.
    + left. rewrite LE, Nat.eqb_refl. cbn [negb]. destruct (validate_bc (ob_bcs ob) Fixation); reflexivity.
    + right. exists e. split; [|reflexivity]. unfold winkler_on, global_forces, global_disp. rewrite E1, E2. reflexivity.
  - right. exists e. split; [|reflexivity]. unfold winkler_on, global_forces. rewrite E1. reflexivity.
Qed.
Lemma solve_answer_beam : forall solve m ob, consistent m ob -> fd_soil (ob_fields ob) = None -> length (nodes_of m) = S (length (elements_of m)) ->
  let f := ob_fields ob in shows_beam (beam_on solve (fd_type f) (fd_circ f) (fd_E f) (fd_nu f) (fd_pile f) (nodes_of m) (elements_of m) (ob_bcs ob)) (fst (solve_object solve ob)).
Proof.
  intros solve m ob C SO LE. cbn zeta. unfold solve_object. rewrite SO.
  destruct (read_nodes_consistent m ob C) as (R & _ & C1 & F1 & B1 & M1). destruct (read_nodes ob) as [z ob1]. cbn [fst snd] in *. subst z.
  destruct (read_elems_consistent m ob1 C1) as (R2 & _ & _ & C2 & F2 & B2 & M2). destruct (read_elems ob1) as [e ob2]. cbn [fst snd] in *. subst e.
  destruct (validate_bc (ob_bcs ob) Force) as [u|e] eqn:E1; [|right; exists e; split; [|reflexivity]; unfold beam_on, global_forces; rewrite E1; reflexivity].
  destruct (validate_bc (ob_bcs ob) Displacement) as [u2|e] eqn:E2; [|right; exists e; split; [|reflexivity]; unfold beam_on, global_forces, global_disp; rewrite E1, E2; reflexivity].
  destruct (validate_bc (ob_bcs ob) Fixation) as [u3|e] eqn:E3.
  - left. rewrite LE, Nat.eqb_refl. reflexivity.
  - right. exists e. split; [|reflexivity]. unfold beam_on, global_forces, global_disp, global_restrained. rewrite E1, E2, E3. reflexivity.
Qed.

(** The tables of one mesh belong together *)
Lemma mesh_joined : forall m, m <> [] -> joined (nodes_of m) (elements_of m).
Proof.
  intros m NE. unfold joined, nodes_of, elements_of. rewrite !map_length, combine_length. destruct m as [|a m]; [congruence|]. clear NE.
  assert (L : length (removelast (a :: m)) = length m) by (revert a; induction m as [|b m IH]; intros a; [reflexivity|]; change (removelast (a :: b :: m)) with (a :: removelast (b :: m)); cbn [length]; rewrite IH; reflexivity).
  rewrite L. cbn [tl length]. rewrite Nat.min_id. split; [reflexivity|]. intros i Hi.
  assert (G : forall m a i, (i < length m)%nat -> nth i (combine (removelast (a :: m)) m) (0, 0) = (nth i (a :: m) 0, nth (S i) (a :: m) 0)).
  { clear. induction m as [|b m IH]; intros a i Hi; [cbn in Hi; lia|]. change (removelast (a :: b :: m)) with (a :: removelast (b :: m)). destruct i as [|i]; [reflexivity|]. cbn [combine nth]. rewrite IH by (cbn in Hi; lia). reflexivity. }
  assert (LC : length (combine (removelast (a :: m)) m) = length m) by (rewrite combine_length, L; apply Nat.min_id).
  rewrite (nth_indep _ _ (round4 (fst (0, 0)), round4 (snd (0, 0)))) by (rewrite map_length, LC; exact Hi).
  rewrite (map_nth (fun e => (round4 (fst e), round4 (snd e))) _ (0, 0)). rewrite G by exact Hi. cbn [fst snd].
  rewrite (nth_indep (map round4 (a :: m)) 0 (round4 0)) by (rewrite map_length; cbn [length]; lia). rewrite (nth_indep (map round4 (a :: m)) 0 (round4 0)) by (rewrite map_length; cbn [length]; lia).
  rewrite !map_nth. auto.
Qed.

Lemma unique_desc_nonempty : forall l, l <> [] -> unique_desc l <> [].
Proof.
  intros [|a l] H; [congruence|]. cbn [unique_desc fold_right]. fold (unique_desc l). destruct (unique_desc l) as [|b r]; cbn [uinsert]; [discriminate|].
  destruct (Qeq_bool a b); [discriminate|]. destruct (Qltb b a); discriminate.
Qed.
Lemma mesh_nonempty : forall p b s x c m, p <> [] -> mesh p b s x c = Some m -> m <> [].
Proof.
  intros p b s x c m NE. unfold mesh. destruct (secondary _ _); [|discriminate]. intros H. injection H as <-. apply unique_desc_nonempty. destruct p as [|a p]; [congruence|].
  assert (P : primary (a :: p) b s x <> []) by (apply unique_desc_nonempty; cbn; discriminate). destruct (primary (a :: p) b s x); [congruence|discriminate].
Qed.
Lemma coordinates_nonempty : forall f m, coordinates f = Some m -> m <> [].
Proof.
  intros f m. unfold coordinates. destruct (pile_bottom (fd_pile f)) as [b|] eqn:E; [|discriminate]. apply mesh_nonempty. intros X. rewrite X in E. discriminate E.
Qed.

Lemma new_consistent : forall rnd ch sort ty circ E nu o sections s x c ob, new_in_soil rnd ch sort ty circ E nu o sections s x c = Ok (Some ob) ->
  exists B, construct rnd ch sort o sections (so_ground s) (so_water s) (so_layers s) x c = Ok (Some B) /\ consistent (b_mesh B) ob /\ ob_made ob = Some (b_made B) /\ ob_bcs ob = [] /\
  ob_fields ob = mkFields (b_pile B) (Some s) x c ty circ E nu o /\ ob_nodes ob = None /\ ob_elems ob = Some (elements_of (b_mesh B)).
Proof.
  intros rnd ch sort ty circ E nu o sections s x c ob. unfold new_in_soil. destruct (construct _ _ _ _ _ _ _ _ _ _) as [[B|]|] eqn:EC; cbn [bind]; try discriminate. intros H. injection H as <-.
  exists B. cbn. split; [reflexivity|]. destruct (construct_inv _ _ _ _ _ _ _ _ _ EC) as (b & ta & fp & sg & E1 & E2 & E3 & E4 & E6 & _).
  split; [|auto]. split; [|cbn; auto]. unfold coordinates. cbn. rewrite E4. exact E6.
Qed.

(** The fields after any program *)
Lemma step_field : forall solve o ob, ob_fields (snd (step solve o ob)) = set_field o (ob_fields ob) /\
  ob_bcs (snd (step solve o ob)) = (match o with Call c => exec (ob_bcs ob) c | _ => ob_bcs ob end) /\ ob_made (snd (step solve o ob)) = ob_made ob.
Proof.
  intros solve o ob.
  assert (RN : forall ob, ob_fields (snd (read_nodes ob)) = ob_fields ob /\ ob_bcs (snd (read_nodes ob)) = ob_bcs ob /\ ob_made (snd (read_nodes ob)) = ob_made ob)
    by (intros b; unfold read_nodes; destruct (ob_nodes b); [auto|destruct (coordinates _); auto]).
  assert (RE : forall ob, ob_fields (snd (read_elems ob)) = ob_fields ob /\ ob_bcs (snd (read_elems ob)) = ob_bcs ob /\ ob_made (snd (read_elems ob)) = ob_made ob)
    by (intros b; unfold read_elems; destruct (ob_elems b); [auto|destruct (coordinates _); auto]).
  destruct o; cbn [step snd set_field]; auto.
  - specialize (RN ob). destruct (read_nodes ob). exact RN.
  - specialize (RE ob). destruct (read_elems ob). exact RE.
  - unfold solve_object. destruct (validate_bc (ob_bcs ob) Force); [|cbn; auto]. pose proof (RN ob) as H. destruct (read_nodes ob) as [z ob1]. cbn [snd] in H.
    destruct z; [|exact H]. pose proof (RE ob1) as H2. destruct (read_elems ob1) as [e ob2]. cbn [snd] in H2. destruct H as (A & B & C), H2 as (A2 & B2 & C2).
    assert (X : ob_fields ob2 = ob_fields ob /\ ob_bcs ob2 = ob_bcs ob /\ ob_made ob2 = ob_made ob) by (repeat split; congruence).
    destruct (validate_bc (ob_bcs ob) Displacement); [|cbn; auto]. destruct (fd_soil (ob_fields ob)), (validate_bc (ob_bcs ob) Fixation); try (cbn; auto; fail); destruct e; exact X.
Qed.
Lemma program_field : forall solve l ob, ob_fields (snd (program solve l ob)) = fold_left (fun f o => set_field o f) l (ob_fields ob) /\
  ob_bcs (snd (program solve l ob)) = run (calls_in l) (ob_bcs ob) /\ ob_made (snd (program solve l ob)) = ob_made ob.
Proof.
  induction l as [|o l IH]; intros ob; [auto|]. rewrite program_snd. destruct (IH (snd (step solve o ob))) as (A & B & C). destruct (step_field solve o ob) as (A1 & B1 & C1). rewrite A, B, C, A1, C1.
  split; [reflexivity|]. split; [|reflexivity]. rewrite B1. unfold calls_in, run. cbn [flat_map]. rewrite fold_left_app. destruct o; reflexivity.
Qed.
