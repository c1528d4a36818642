(** Springs after the tables have been read, the shaft resistance then, and a program whose second
    analysis differs from the first. *)
From Coq Require Import List Bool Arith ZArith QArith Qabs Qminmax Lia Lqa.
From Verif Require Import Base LinAlg PileModel MeshSpec BeamModel StressModel StressSpec ShaftProofs GetterModel GetterProofs SolveModel SolveSpec SolveProofs SpringModel SpringSpec SpringProofs SpringWitness WinklerModel WinklerSpec WinklerProofs WinklerWitness ResultModel ResultSpec ResultProofs CreateModel BCModel BCSpec WholeModel SessionModel SessionSpec SessionProofs.
Import ListNotations.
Local Open Scope Q_scope.

Lemma descending_elev : forall fr, strictly_descending (fr_nodes fr) -> forall e, (e < fr_n fr)%nat -> elev fr (S e) < elev fr e.
Proof.
  intros fr H e He. unfold elev, fr_n in *. apply (H e (S e) (nth e (fr_nodes fr) 0) (nth (S e) (fr_nodes fr) 0)); [lia| |]; apply nth_error_nth'; lia.
Qed.

Lemma tributary_half : forall fr i, (2 <= length (fr_nodes fr))%nat -> tributary (fr_n fr) (elev fr) i == half_lengths (fr_nodes fr) i.
Proof.
  intros fr i L. unfold tributary, half_lengths, elev, fr_n.
  replace (i =? length (fr_nodes fr) - 1)%nat with (S i =? length (fr_nodes fr))%nat; [reflexivity|].
  destruct (Nat.eqb_spec (S i) (length (fr_nodes fr))); destruct (Nat.eqb_spec i (length (fr_nodes fr) - 1)); auto; lia.
Qed.

Lemma influence_half : forall fr i, strictly_descending (fr_nodes fr) -> (2 <= length (fr_nodes fr))%nat -> (i <= fr_n fr)%nat ->
  GetterModel.influence (fr_n fr) (elev fr) i == half_lengths (fr_nodes fr) i.
Proof.
  intros fr i D L Hi. rewrite (influence_tributary (fr_n fr) (elev fr)); [apply tributary_half; exact L|unfold fr_n; lia|apply descending_elev; exact D|exact Hi].
Qed.

Lemma half_pos : forall fr i, strictly_descending (fr_nodes fr) -> (2 <= length (fr_nodes fr))%nat -> (i <= fr_n fr)%nat -> 0 < half_lengths (fr_nodes fr) i.
Proof.
  intros fr i D L Hi. rewrite <- (influence_half fr i D L Hi). apply influence_pos; [unfold fr_n; lia|apply descending_elev; exact D|exact Hi].
Qed.

Lemma power_pos : forall x k, 0 < x -> 0 < power x k.
Proof. intros x k H. induction k as [|k IH]; cbn [power]; [reflexivity|]. apply Qmult_lt_0_compat; auto. Qed.

Lemma qpow_power : forall x y k, x == y -> qpow x k == power y k.
Proof. intros x y k H. induction k as [|k IH]; cbn [qpow power]; [reflexivity|]. rewrite IH, H. reflexivity. Qed.

Lemma scaled_map : forall w (y p p' : nat -> Q) l, (forall v, p' v == w * p v) -> scaled w (map (fun v => (y v, p v)) l) (map (fun v => (y v, p' v)) l).
Proof. intros w y p p' l H. induction l as [|v l IH]; constructor; auto. split; cbn [fst snd]; [reflexivity|apply H]. Qed.

Lemma session_scaled : forall solve fr l st e j, fr_soil fr = true -> strictly_descending (fr_nodes fr) -> (e < fr_n fr)%nat -> (j < 2)%nat ->
  let s' := st_springs (snd (session solve fr l st)) in
  scaled (power (half_lengths (fr_nodes fr) (e + j)) (readings Lateral l)) (spring_curve (g_py (st_springs st)) e j) (spring_curve (g_py s') e j) /\
  scaled (power (half_lengths (fr_nodes fr) (e + j)) (readings Axial l)) (spring_curve (g_tz (st_springs st)) e j) (spring_curve (g_tz s') e j) /\
  g_mt s' = g_mt (st_springs st).
Proof.
  intros solve fr l st e j HS D He Hj s'. unfold s'. rewrite (session_state solve fr l st HS). cbn [st_springs].
  destruct (readings_touched l) as [RL RA]. rewrite RL, RA.
  assert (L2 : (2 <= length (fr_nodes fr))%nat) by (unfold fr_n in He; lia).
  assert (N : node_of e j = (e + j)%nat) by (destruct j as [|[|]]; cbn; lia).
  pose proof (influence_half fr (e + j) D L2 ltac:(lia)) as IH.
  split; [|split].
  - unfold spring_curve. destruct (calls_scale (fr_n fr) spring_dim (elev fr) (tables l) (st_springs st) 0 0 0) as (_ & _ & Y & _). rewrite Y.
    apply scaled_map. intros v. rewrite (proj1 (calls_scale (fr_n fr) spring_dim (elev fr) (tables l) (st_springs st) e j v)), N, (qpow_power _ _ _ IH). ring.
  - unfold spring_curve. destruct (calls_scale (fr_n fr) spring_dim (elev fr) (tables l) (st_springs st) 0 0 0) as (_ & _ & _ & Y & _). rewrite Y.
    apply scaled_map. intros v. rewrite (proj1 (proj2 (calls_scale (fr_n fr) spring_dim (elev fr) (tables l) (st_springs st) e j v))), N, (qpow_power _ _ _ IH). ring.
  - exact (proj2 (proj2 (proj2 (proj2 (calls_scale (fr_n fr) spring_dim (elev fr) (tables l) (st_springs st) 0 0 0))))).
Qed.

(** ** shaft resistance *)
Lemma qmin_step : forall x y t, qmin (x :: y :: t) = Qmin x (qmin (y :: t)).
Proof. reflexivity. Qed.

Lemma Qmin_scale : forall w a b, 0 <= w -> Qmin (w * a) (w * b) == w * Qmin a b.
Proof.
  intros w a b Hw. destruct (Qlt_le_dec b a) as [H|H].
  - rewrite (Q.min_r a b) by lra. apply Q.min_r. rewrite !(Qmult_comm w). apply Qmult_le_compat_r; lra.
  - rewrite (Q.min_l a b) by lra. apply Q.min_l. rewrite !(Qmult_comm w). apply Qmult_le_compat_r; lra.
Qed.

Lemma scaled_qmin : forall w c c', 0 <= w -> scaled w c c' -> qmin (map snd c') == w * qmin (map snd c).
Proof.
  intros w c c' Hw H. induction H as [|p p' t t' [_ E] Ht IH]; [cbn; ring|]. destruct Ht as [|q q' t t' HQ Ht]; [exact E|].
  cbn [map] in *. rewrite !qmin_step, IH, E. apply Qmin_scale; auto.
Qed.

Lemma Qsum_const : forall n (f : nat -> Q) c k, (forall e, (k <= e < k + n)%nat -> f e == c) -> Qsum (map f (seq k n)) == inject_Z (Z.of_nat n) * c.
Proof.
  induction n as [|n IH]; intros f c k H; [cbn; ring|]. cbn [seq map]. change (Qsum (f k :: map f (seq (S k) n))) with (f k + Qsum (map f (seq (S k) n))).
  rewrite (IH f c (S k)) by (intros; apply H; lia). rewrite (H k) by lia. rewrite Nat2Z.inj_succ, <- Z.add_1_r, inject_Z_plus. ring.
Qed.

Lemma Qsum_cons : forall a l, Qsum (a :: l) = a + Qsum l.
Proof. reflexivity. Qed.

Lemma trapezoid_map : forall h (f : nat -> Q * Q) l, trapezoid (map f l) (map (fun _ => h) (map f l)) == Qsum (map (fun e => (Qabs (fst (f e)) + Qabs (snd (f e))) / 2 * h) l).
Proof.
  intros h f l. induction l as [|e l IH]; [reflexivity|]. cbn [map trapezoid]. rewrite Qsum_cons. destruct (f e) as [a b]. cbn [fst snd]. rewrite IH. reflexivity.
Qed.

(** elements of one length [h] *)
Definition uniform_mesh (z : list Q) (h : Q) : Prop :=
  0 < h /\ forall i u v, nth_error z i = Some u -> nth_error z (S i) = Some v -> u - v == h.

Lemma uniform_step : forall z h i, uniform_mesh z h -> (S i < length z)%nat -> nth i z 0 - nth (S i) z 0 == h.
Proof. intros z h i [_ U] L. apply (U i); apply nth_error_nth'; lia. Qed.

Lemma uniform_descending : forall z h, uniform_mesh z h -> strictly_descending z.
Proof.
  intros z h [Hh U] i j a b L. induction L as [|m L IH] in b |- *; intros A B.
  - pose proof (U i a b A B). lra.
  - destruct (nth_error z m) as [c|] eqn:C.
    + pose proof (U m c b C B). pose proof (IH c A eq_refl). lra.
    + apply nth_error_None in C. assert (S m < length z)%nat by (apply nth_error_Some; congruence). lia.
Qed.

Lemma uniform_half : forall z h i, uniform_mesh z h -> (2 <= length z)%nat -> (i < length z)%nat ->
  half_lengths z i == if (Nat.eqb i 0 || Nat.eqb (S i) (length z))%bool then h / 2 else h.
Proof.
  intros z h i U L Hi. unfold half_lengths. destruct (Nat.eqb_spec i 0) as [->|N0]; cbn [orb].
  - replace (1 =? length z)%nat with false by (symmetry; apply Nat.eqb_neq; lia). rewrite (uniform_step z h 0 U) by lia. unfold Qdiv. ring.
  - pose proof (uniform_step z h (i - 1) U ltac:(lia)) as A. replace (S (i - 1)) with i in A by lia. rewrite A.
    destruct (Nat.eqb_spec (S i) (length z)); [unfold Qdiv; ring|]. rewrite (uniform_step z h i U) by lia. unfold Qdiv. field.
Qed.

Lemma Qsum_split : forall a b, Qsum (a ++ b) == Qsum a + Qsum b.
Proof. induction a as [|x a IH]; intros b; [change (Qsum []) with 0; cbn [app]; ring|]. cbn [app]. rewrite !Qsum_cons, IH. ring. Qed.

(** every spring can carry the friction [f] in compression *)
Definition friction_everywhere (n : nat) (s : springs) (f : Q) : Prop :=
  forall e j, (e < n)%nat -> (j < 2)%nat -> qmin (map snd (spring_curve s e j)) == - f.

Lemma seq_ends : forall n, (2 <= n)%nat -> seq 0 n = 0%nat :: seq 1 (n - 2) ++ [(n - 1)%nat].
Proof.
  intros [|[|n]] H; try lia. cbn [seq]. f_equal. replace (S (S n) - 2)%nat with n by lia. replace (S (S n) - 1)%nat with (1 + n)%nat by lia.
  change (seq 1 n ++ [(1 + n)%nat]) with (seq 1 n ++ seq (1 + n) 1). rewrite <- seq_app. replace (n + 1)%nat with (S n) by lia. reflexivity.
Qed.

Lemma shaft_in_compression : forall fr st h c t, uniform_mesh (fr_nodes fr) h -> (2 <= length (fr_nodes fr))%nat -> shaft_state fr st = Some (c, t) ->
  (forall e j, (e < fr_n fr)%nat -> (j < 2)%nat -> qmin (map snd (spring_curve (g_tz (st_springs st)) e j)) <= 0) ->
  c == Qsum (map (fun e => (Qabs (qmin (map snd (spring_curve (g_tz (st_springs st)) e 0))) + Qabs (qmin (map snd (spring_curve (g_tz (st_springs st)) e 1)))) / 2 * h) (seq 0 (fr_n fr))).
Proof.
  intros fr st h c t U L H NEG. unfold shaft_state in H. destruct (fr_soil fr); [|discriminate].
  destruct (StressModel.influence (fr_nodes fr)) as [infl|] eqn:I; [|discriminate]. injection H as <- _.
  rewrite (shaft_uniform h (fr_nodes fr) _ infl (proj1 U) (proj2 U) I).
  - unfold extreme_friction. rewrite trapezoid_map. reflexivity.
  - unfold extreme_friction. rewrite map_length, seq_length. unfold fr_n. lia.
  - intros p Hp. unfold extreme_friction in Hp. apply in_map_iff in Hp as (e & <- & He). apply in_seq in He. cbn [fst snd].
    pose proof (NEG e 0%nat ltac:(lia) ltac:(lia)) as A. pose proof (NEG e 1%nat ltac:(lia) ltac:(lia)) as B.
    set (x := qmin (map snd (spring_curve (g_tz (st_springs st)) e 0))) in *. set (y := qmin (map snd (spring_curve (g_tz (st_springs st)) e 1))) in *.
    setoid_replace (x * y) with ((- x) * (- y)) by ring. apply Qmult_le_0_compat; lra.
Qed.

Lemma uniform_shaft : forall fr st h f c t, uniform_mesh (fr_nodes fr) h -> (3 <= length (fr_nodes fr))%nat -> 0 <= f -> friction_everywhere (fr_n fr) (g_tz (st_springs st)) f ->
  shaft_state fr st = Some (c, t) -> c == f * (inject_Z (Z.of_nat (fr_n fr)) * h).
Proof.
  intros fr st h f c t U L Hf FR H. unfold friction_everywhere in FR. assert (NEG : forall e j, (e < fr_n fr)%nat -> (j < 2)%nat -> qmin (map snd (spring_curve (g_tz (st_springs st)) e j)) <= 0) by (intros e j He Hj; rewrite (FR e j He Hj); lra).
  pose proof (shaft_in_compression fr st h c t U ltac:(lia) H NEG) as E. rewrite E.
  rewrite (Qsum_const _ _ (f * h)); [ring|]. intros e He. rewrite !FR by lia. rewrite Qabs_neg by lra. unfold Qdiv. field.
Qed.

Lemma uniform_shaft_after : forall solve fr st h f k st' c t, fr_soil fr = true -> uniform_mesh (fr_nodes fr) h -> (3 <= length (fr_nodes fr))%nat -> 0 <= f ->
  friction_everywhere (fr_n fr) (g_tz (st_springs st)) f -> (k = Lumped \/ k = Distributed) ->
  snd (session solve fr [Table Axial k] st) = st' -> shaft_state fr st' = Some (c, t) -> c == f * h * h * (inject_Z (Z.of_nat (fr_n fr)) - (1#2)).
Proof.
  intros solve fr st h f k st' c t HS U L Hf FR Hk E H. subst st'. unfold friction_everywhere in FR.
  set (st' := snd (session solve fr [Table Axial k] st)) in *.
  assert (R1 : readings Axial [Table Axial k] = 1%nat) by (destruct Hk as [->| ->]; reflexivity).
  assert (M : forall e j, (e < fr_n fr)%nat -> (j < 2)%nat -> qmin (map snd (spring_curve (g_tz (st_springs st')) e j)) == - (f * half_lengths (fr_nodes fr) (e + j))).
  { intros e j He Hj. destruct (session_scaled solve fr [Table Axial k] st e j HS (uniform_descending _ _ U) He Hj) as (_ & SC & _). rewrite R1 in SC.
    pose proof (half_pos fr (e + j) (uniform_descending _ _ U) ltac:(lia) ltac:(lia)) as HP.
    cbn [power] in SC. assert (P1 : 0 <= half_lengths (fr_nodes fr) (e + j) * 1) by lra.
    pose proof (scaled_qmin _ _ _ P1 SC) as X. rewrite (FR e j He Hj) in X. unfold st'. rewrite X. ring. }
  assert (NEG : forall e j, (e < fr_n fr)%nat -> (j < 2)%nat -> qmin (map snd (spring_curve (g_tz (st_springs st')) e j)) <= 0).
  { intros e j He Hj. rewrite M by auto. pose proof (half_pos fr (e + j) (uniform_descending _ _ U) ltac:(lia) ltac:(lia)) as HP.
    assert (0 <= f * half_lengths (fr_nodes fr) (e + j)) by (apply Qmult_le_0_compat; lra). lra. }
  pose proof (shaft_in_compression fr st' h c t U ltac:(lia) H NEG) as EC. rewrite EC.
  assert (LN : length (fr_nodes fr) = S (fr_n fr)) by (unfold fr_n; lia).
  assert (V : forall e j, (e < fr_n fr)%nat -> (j < 2)%nat -> Qabs (qmin (map snd (spring_curve (g_tz (st_springs st')) e j))) == f * half_lengths (fr_nodes fr) (e + j)).
  { intros e j He Hj. rewrite Qabs_neg by (apply NEG; auto). rewrite M by auto. ring. }
  rewrite seq_ends by lia. cbn [map]. rewrite Qsum_cons, map_app, Qsum_split. cbn [map]. rewrite Qsum_cons. change (Qsum []) with 0.
  rewrite (Qsum_const (fr_n fr - 2) _ (f * h * h)).
  - rewrite !V by lia. rewrite !(uniform_half _ _ _ U) by lia. rewrite LN.
    replace (0 + 0 =? 0)%nat with true by reflexivity. replace (0 + 1 =? 0)%nat with false by reflexivity.
    replace (fr_n fr - 1 + 0 =? 0)%nat with false by (symmetry; apply Nat.eqb_neq; lia).
    replace (fr_n fr - 1 + 1 =? 0)%nat with false by (symmetry; apply Nat.eqb_neq; lia).
    replace (S (0 + 1) =? S (fr_n fr))%nat with false by (symmetry; apply Nat.eqb_neq; lia).
    replace (S (fr_n fr - 1 + 0) =? S (fr_n fr))%nat with false by (symmetry; apply Nat.eqb_neq; lia).
    replace (S (fr_n fr - 1 + 1) =? S (fr_n fr))%nat with true by (symmetry; apply Nat.eqb_eq; lia). cbn [orb].
    rewrite Nat2Z.inj_sub by lia. unfold Zminus. rewrite inject_Z_plus, inject_Z_opp. change (inject_Z (Z.of_nat 2)) with 2. unfold Qdiv. field.
  - intros e He. rewrite !V by lia. rewrite !(uniform_half _ _ _ U) by lia. rewrite LN.
    replace (e + 0 =? 0)%nat with false by (symmetry; apply Nat.eqb_neq; lia). replace (e + 1 =? 0)%nat with false by (symmetry; apply Nat.eqb_neq; lia).
    replace (S (e + 0) =? S (fr_n fr))%nat with false by (symmetry; apply Nat.eqb_neq; lia).
    replace (S (e + 1) =? S (fr_n fr))%nat with false by (symmetry; apply Nat.eqb_neq; lia). cbn [orb]. field.
Qed.

Lemma shaft_defined : forall fr st, fr_soil fr = true -> (2 <= length (fr_nodes fr))%nat -> exists c t, shaft_state fr st = Some (c, t).
Proof.
  intros fr st HS L. unfold shaft_state. rewrite HS. destruct (fr_nodes fr) as [|a [|b z]] eqn:E; cbn in L; try lia.
  rewrite influence_eq. eexists _, _. reflexivity.
Qed.

(** ** a program that analyses twice *)
Definition ex_py : springs := {| s_p := fun _ _ v => inject_Z (Z.of_nat v) * 10; s_y := fun _ _ v => inject_Z (Z.of_nat v) / 100 |}.
Definition ex_tz : springs := {| s_p := fun _ _ v => inject_Z (7 - Z.of_nat v) * 10; s_y := fun _ _ v => inject_Z (7 - Z.of_nat v) / 1000 |}.
Definition ex_mt : springs5 := {| t_m := fun _ _ _ _ => 0; t_t := fun _ _ _ _ => 0 |}.
Definition ex_springs : spring_state := {| g_py := ex_py; g_tz := ex_tz; g_mt := ex_mt |}.
Definition ex_frame : frame := {| fr_nodes := [0; -(1); -(2)]; fr_mech := fun _ => mech0; fr_L := fun _ => 1; fr_mtc := fun _ => (0, 0, 0, 0); fr_soil := true;
  fr_lateral := true; fr_axial := true; fr_moment := false; fr_base_shear := false; fr_base_moment := false; fr_base_axial := true; fr_hb := py0; fr_mb := py0; fr_qz := tz0 |}.
Definition ex_load : BCModel.call := SetPointload 0 (Some 10) (Some (-10)) None.
Definition ex_state : state := {| st_bcs := []; st_springs := ex_springs |}.

Definition forces_at (l : list bc) : vec := match global_forces (fr_nodes ex_frame) l with Ok t => dof_vector t | Err _ => zero end.
Definition moved_at (l : list bc) : vec := match global_disp (fr_nodes ex_frame) l with Ok t => dof_vector t | Err _ => zero end.
Definition held_at (l : list bc) : nat -> bool := match global_restrained (fr_nodes ex_frame) l with Ok t => dof_flags t | Err _ => free end.
Definition loaded : list bc := run [ex_load] [].

(** head deflection of the first linear solution *)
Definition first_head (s : spring_state) : option Q :=
  match first_pass (as_model ex_frame s) (forces_at loaded) (moved_at loaded) (held_at loaded) with Some (U, _) => Some (nth 1 U 0) | None => None end.

Definition linear_flag (s : spring_state) : bool :=
  match first_pass (as_model ex_frame s) (forces_at loaded) (moved_at loaded) (held_at loaded) with
  | Some (U, R) => same_list 9 (build (as_model ex_frame s) (of_list U) Secant) (build (as_model ex_frame s) zero Initial) &&
                   same_list 9 (build (as_model ex_frame s) (of_list U) Tangent) (build (as_model ex_frame s) zero Initial) &&
                   negb (Qeq_bool (forces_at loaded 1%nat) (2 * nth 1 R 0))
  | None => false end.

(** springs that are the same in all elements give an analysis with the first linear deflection *)
Lemma linear_run : forall s, linear_flag s = true ->
  (forall e j, (e < 2)%nat -> (j < 2)%nat -> regular (spring_curve (g_py s) e j)) ->
  (forall e j, (e < 2)%nat -> (j < 2)%nat -> qsum (map (fun col => fst (point col 0)) (moment_columns (g_mt s) e j)) == 0) ->
  exists w rows r0 y, solve_state gauss_solver ex_frame {| st_bcs := loaded; st_springs := s |} = Ok (Some w) /\
    res_disp w = Some (r0 :: rows) /\ first_head s = Some y /\ second3 r0 == y /\ fst r0 == 0.
Proof.
  intros s FL RG MT. unfold linear_flag in FL. unfold first_head.
  destruct (first_pass (as_model ex_frame s) (forces_at loaded) (moved_at loaded) (held_at loaded)) as [[U R]|] eqn:FP; [|discriminate].
  apply andb_true_iff in FL as [FL F3]. apply andb_true_iff in FL as [F1 F2]. apply negb_true_iff in F3.
  destruct (linear_case (as_model ex_frame s) (forces_at loaded) (moved_at loaded) (held_at loaded) U R 1 FP F1 F2) as (K & U1 & R1 & Ks & Kt & A & B & C & D & E & G & N & V & _);
    [unfold size; cbn; lia|exact F3|].
  destruct (model_linear gauss_solver (as_model ex_frame s) (forces_at loaded) (moved_at loaded) (held_at loaded) K U1 R1 Ks Kt gauss_solver_ok A B C D E G N 100 ltac:(lia))
    as (o & v & Rf & X & _ & Y & VU & _).
  assert (GF : global_forces (fr_nodes ex_frame) loaded = Ok (match global_forces (fr_nodes ex_frame) loaded with Ok t => t | Err _ => zeros [] end)) by reflexivity.
  assert (GD : global_disp (fr_nodes ex_frame) loaded = Ok (match global_disp (fr_nodes ex_frame) loaded with Ok t => t | Err _ => zeros [] end)) by reflexivity.
  assert (GR : global_restrained (fr_nodes ex_frame) loaded = Ok (match global_restrained (fr_nodes ex_frame) loaded with Ok t => t | Err _ => zeros [] end)) by reflexivity.
  unfold solve_state. cbn [st_bcs st_springs]. rewrite GF. cbn [bind]. rewrite GD. cbn [bind]. rewrite GR. cbn [bind].
  set (tf := match global_forces (fr_nodes ex_frame) loaded with Ok t => t | Err _ => zeros [] end) in *.
  set (td := match global_disp (fr_nodes ex_frame) loaded with Ok t => t | Err _ => zeros [] end) in *.
  set (tr := match global_restrained (fr_nodes ex_frame) loaded with Ok t => t | Err _ => zeros [] end) in *.
  assert (E1 : forces_at loaded = dof_vector tf) by (unfold forces_at; rewrite GF; reflexivity).
  assert (E2 : moved_at loaded = dof_vector td) by (unfold moved_at; rewrite GD; reflexivity).
  assert (E3 : held_at loaded = dof_flags tr) by (unfold held_at; rewrite GR; reflexivity).
  rewrite E1, E2, E3 in X. change (fr_soil ex_frame) with true. cbn [when solve_model winkler_result]. rewrite X. cbn [bind]. unfold result_of. rewrite Y.
  destruct (table_total (as_model ex_frame s) (fr_nodes ex_frame) (a_py (arrays_of ex_frame s)) (a_mt (arrays_of ex_frame s)) v) as [rows ->].
  { intros e j He Hj. left. apply RG; auto. }
  { intros e j He Hj. left. apply MT; auto. }
  cbn [bind option_map base_report]. destruct py0_ok as (L & ST & HD & OR).
  destruct (base_secant (v (size (as_model ex_frame s) - 2)%nat) py0 L ST HD OR) as (k & p & B1 & _).
  destruct (base_secant (v (size (as_model ex_frame s) - 1)%nat) py0 L ST HD OR) as (k' & p' & B2 & _).
  unfold base_mobilised. change (a_hb (arrays_of ex_frame s)) with py0. change (a_mb (arrays_of ex_frame s)) with py0. rewrite B1, B2. cbn [bind].
  eexists _, _, _, _. split; [reflexivity|]. cbn [res_disp option_map]. split; [reflexivity|]. split; [reflexivity|].
  split; [|reflexivity]. cbn [second3 snd fst]. rewrite (VU 1%nat) by (unfold size; cbn; lia). rewrite <- (V 1%nat) by (unfold size; cbn; lia). reflexivity.
Qed.

Definition read_once : spring_state := st_springs (snd (session gauss_solver ex_frame [Table Lateral Lumped] ex_state)).

Lemma regular_spring : forall f : nat -> Q, 0 < f 1%nat -> (forall v, f v == inject_Z (Z.of_nat v) * f 1%nat) ->
  regular (map (fun v => (inject_Z (Z.of_nat v) / 100, f v)) (seq 0 spring_dim)).
Proof.
  intros f P H. split; [cbn; lia|]. assert (INC : forall v, f v <= f (S v)).
  { intros v. rewrite (H v), (H (S v)). rewrite Nat2Z.inj_succ, <- Z.add_1_r, inject_Z_plus. change (inject_Z 1) with 1. lra. }
  split; [|split].
  - cbn [seq spring_dim map strict]. repeat split; reflexivity.
  - cbn [seq spring_dim map hardening]. repeat split; apply INC.
  - split; cbn [seq spring_dim map point nth fst snd]; [reflexivity|]. rewrite H. cbn. ring.
Qed.

Lemma ex_regular : forall e j, regular (spring_curve (g_py ex_springs) e j).
Proof. intros e j. apply (regular_spring (fun v => inject_Z (Z.of_nat v) * 10)); [reflexivity|]. intros v. ring. Qed.

Lemma read_regular : forall e j, (e < 2)%nat -> (j < 2)%nat -> regular (spring_curve (g_py read_once) e j).
Proof.
  intros e j He Hj. set (w := GetterModel.influence 2 (elev ex_frame) (node_of e j)).
  apply (regular_spring (fun v => inject_Z (Z.of_nat v) * 10 * w)); [|intros v; change (inject_Z (Z.of_nat 1)) with 1; ring].
  unfold w. destruct e as [|[|]], j as [|[|]]; try lia; reflexivity.
Qed.

(** The head moves half as much again after the table of the lateral springs has been read. *)
Lemma analysed_twice : exists w1 w2 t r1 r2 rows1 rows2,
  fst (session gauss_solver ex_frame [Set_ ex_load; Solve; Table Lateral Lumped; Solve] ex_state) =
    [Done; Analysis (Ok (Some w1)); Springs (Ok (Some t)); Analysis (Ok (Some w2))] /\
  res_disp w1 = Some (r1 :: rows1) /\ res_disp w2 = Some (r2 :: rows2) /\ fst r1 == fst r2 /\ 0 < second3 r1 /\ (3#2) * second3 r1 < second3 r2.
Proof.
  destruct (linear_run ex_springs) as (w1 & rows1 & r1 & y1 & A1 & B1 & C1 & D1 & F1); [vm_compute; reflexivity|intros; apply ex_regular|intros; vm_compute; reflexivity|].
  destruct (linear_run read_once) as (w2 & rows2 & r2 & y2 & A2 & B2 & C2 & D2 & F2); [vm_compute; reflexivity|intros; apply read_regular; auto|intros; vm_compute; reflexivity|].
  assert (Y : match first_head ex_springs, first_head read_once with Some a, Some b => Qltb 0 a && Qltb ((3#2) * a) b | _, _ => false end = true) by (vm_compute; reflexivity).
  rewrite C1, C2 in Y. apply andb_true_iff in Y as [Y1 Y2]. apply Qltb_true in Y1. apply Qltb_true in Y2.
  exists w1, w2. eexists. exists r1, r2, rows1, rows2. split.
  - cbn [session step]. change (exec (st_bcs ex_state) ex_load) with loaded. change (st_springs ex_state) with ex_springs. cbn [fst]. rewrite A1.
    unfold table_state. change (fr_soil ex_frame) with true. cbn iota. cbn [GetterModel.call get_lumped st_springs st_bcs].
    change {| g_py := weighted (fr_n ex_frame) (fun i => nth i (fr_nodes ex_frame) 0) (g_py ex_springs); g_tz := g_tz ex_springs; g_mt := g_mt ex_springs |} with read_once.
    rewrite A2. reflexivity.
  - split; [exact B1|]. split; [exact B2|]. split; [rewrite F1, F2; reflexivity|]. rewrite D1, D2. split; assumption.
Qed.
