(** Setter calls whose prescribed displacements are multiplied by a number. *)
From Coq Require Import List Bool Arith ZArith QArith Qabs Lia Lqa Setoid.
From Verif Require Import Base LinAlg BCModel BCSpec PileModel BeamModel SolveModel WholeModel WholeSpec WholeProofs ApartCalls.
Import ListNotations.
Local Open Scope Q_scope.

Definition times (t : Q) (o : option Q) : option Q := option_map (Qmult t) o.
(** the same call with [t] times the displacements; supports and loads are left alone *)
Definition scaled (t : Q) (c : call) : call := match c with SetPointdisplacement e y z x => SetPointdisplacement e (times t y) (times t z) (times t x) | _ => c end.
Definition scaled_bc (t : Q) (b : bc) : bc := match bc_kind b with Displacement => mkBC Displacement (bc_elev b) (times t (bc_x b)) (times t (bc_y b)) (times t (bc_z b)) | _ => b end.

Lemma scaled_kind : forall t b, bc_kind (scaled_bc t b) = bc_kind b.
Proof. intros t [[] e x y z]; reflexivity. Qed.
Lemma scaled_elev : forall t b, bc_elev (scaled_bc t b) = bc_elev b.
Proof. intros t [[] e x y z]; reflexivity. Qed.
Lemma request_scaled : forall t c, request (scaled t c) = scaled_bc t (request c).
Proof. intros t []; reflexivity. Qed.
Lemma scaled_select : forall t k e b, selects k e (scaled_bc t b) = selects k e b.
Proof. intros. unfold selects. rewrite scaled_kind, scaled_elev. reflexivity. Qed.
Lemma scaled_filter : forall t k e l, length (filter (selects k e) (map (scaled_bc t) l)) = length (filter (selects k e) l).
Proof. intros t k e l. induction l as [|b l IH]; [reflexivity|]. cbn [map filter]. rewrite scaled_select. destruct (selects k e b); cbn [length]; rewrite IH; reflexivity. Qed.
Lemma times_merge : forall t a b, times t (merge_val a b) = merge_val (times t a) (times t b).
Proof. intros t [a|] b; reflexivity. Qed.

Lemma exec_scaled : forall t c l, exec (map (scaled_bc t) l) (scaled t c) = map (scaled_bc t) (exec l c).
Proof.
  intros t c l. rewrite !exec_request, request_scaled. set (q := request c). unfold update_bc. rewrite scaled_kind, scaled_elev, scaled_filter.
  destruct (Nat.eqb _ 1).
  - induction l as [|b l IH]; [reflexivity|]. cbn [map update_selected]. rewrite scaled_select. f_equal; [|exact IH].
    destruct (selects _ _ b) eqn:E; [|reflexivity]. unfold selects in E. apply andb_true_iff in E. destruct E as [_ E].
    destruct q as [kq eq xq yq zq], b as [kb eb xb yb zb]. cbn [bc_kind] in E. destruct kq, kb; cbn in E; try discriminate E; unfold merge_bc, scaled_bc; cbn [bc_kind bc_elev bc_x bc_y bc_z]; rewrite ?times_merge; reflexivity.
  - rewrite map_app. cbn [map]. do 2 f_equal. destruct q as [[] eq xq yq zq]; reflexivity.
Qed.
Lemma run_scaled : forall t cs l, run (map (scaled t) cs) (map (scaled_bc t) l) = map (scaled_bc t) (run cs l).
Proof. intros t cs. unfold run. induction cs as [|c cs IH]; intros l; [reflexivity|]. cbn [map fold_left]. rewrite exec_scaled. apply IH. Qed.

Lemma apply_unscaled : forall cast nodes k t l T, k <> Displacement -> apply_bc cast nodes k (map (scaled_bc t) l) T = apply_bc cast nodes k l T.
Proof.
  intros cast nodes k t l. unfold apply_bc. induction l as [|b l IH]; intros T NK; [reflexivity|]. cbn [map fold_left]. rewrite IH by exact NK. f_equal.
  destruct b as [[] e x y z]; try reflexivity. unfold apply_one. cbn. destruct k; [reflexivity|congruence|reflexivity].
Qed.
Definition table_times (t : Q) (T T' : table) : Prop := Forall2 (fun a b => b == t * a) (col_x T) (col_x T') /\ Forall2 (fun a b => b == t * a) (col_y T) (col_y T') /\ Forall2 (fun a b => b == t * a) (col_z T) (col_z T').
Lemma set_times : forall t i q q' c c', q' == t * q -> Forall2 (fun a b => b == t * a) c c' -> Forall2 (fun a b => b == t * a) (set_nth i q c) (set_nth i q' c').
Proof. intros t i q q' c c' E H. revert i. induction H as [|x y l l2 Hab Hc IH]; intros [|i]; cbn; try constructor; auto. Qed.
Lemma write_times : forall t i o c c', ~ t == 0 -> Forall2 (fun a b => b == t * a) c c' -> Forall2 (fun a b => b == t * a) (write (fun q => q) c i o) (write (fun q => q) c' i (times t o)).
Proof.
  intros t i [q|] c c' NT H; [|exact H]. unfold write, times, truthy. cbn [option_map]. destruct (Qeq_bool q 0) eqn:E, (Qeq_bool (t * q) 0) eqn:E'; auto.
  - apply Qeq_bool_iff in E. apply Qeq_bool_neq in E'. exfalso. apply E'. rewrite E. ring.
  - apply Qeq_bool_neq in E. apply Qeq_bool_iff in E'. apply Qmult_integral in E'. tauto.
  - apply set_times; [reflexivity|exact H].
Qed.
Lemma apply_scaled : forall nodes t l T T', ~ t == 0 -> table_times t T T' ->
  table_times t (apply_bc (fun q => q) nodes Displacement l T) (apply_bc (fun q => q) nodes Displacement (map (scaled_bc t) l) T').
Proof.
  intros nodes t l. unfold apply_bc. induction l as [|b l IH]; intros T T' NT H; [exact H|]. cbn [map fold_left]. apply IH; [exact NT|].
  destruct b as [k e x y z]. unfold apply_one. rewrite scaled_kind, scaled_elev. cbn [bc_kind bc_elev]. destruct k; try exact H. cbn [kind_eqb].
  destruct (first_close nodes e) as [i|]; [|exact H]. destruct H as (X & Y & Z). unfold scaled_bc. cbn [bc_kind bc_x bc_y bc_z col_x col_y col_z]. split; [|split]; cbn [col_x col_y col_z]; apply write_times; assumption.
Qed.
Lemma zeros_times : forall t nodes, table_times t (zeros nodes) (zeros nodes).
Proof. intros t nodes. assert (C : Forall2 (fun a b => b == t * a) (map (fun _ : Q => 0) nodes) (map (fun _ => 0) nodes)) by (induction nodes; constructor; [ring|assumption]). exact (conj C (conj C C)). Qed.
Lemma dof_times : forall t T T', table_times t T T' -> forall i, dof_vector T' i == t * dof_vector T i.
Proof.
  intros t T T' (X & Y & Z) i. assert (G : forall c c' k, Forall2 (fun a b => b == t * a) c c' -> nth k c' 0 == t * nth k c 0).
  { intros c c' k H. revert k. induction H; intros [|k]; cbn; auto; ring. }
  unfold dof_vector. destruct (i mod 3)%nat as [|[|[|]]]; apply G; assumption.
Qed.

(** The three tables of the scaled calls *)
Lemma tables_scaled : forall nodes t cs tf td tr tf' td' tr', ~ t == 0 ->
  global_forces nodes (run cs []) = Ok tf -> global_disp nodes (run cs []) = Ok td -> global_restrained nodes (run cs []) = Ok tr ->
  global_forces nodes (run (map (scaled t) cs) []) = Ok tf' -> global_disp nodes (run (map (scaled t) cs) []) = Ok td' -> global_restrained nodes (run (map (scaled t) cs) []) = Ok tr' ->
  tf' = tf /\ tr' = tr /\ forall i, dof_vector td' i == t * dof_vector td i.
Proof.
  intros nodes t cs tf td tr tf' td' tr' NT A B C A' B' C'. pose proof (run_scaled t cs []) as RS. cbn [map] in RS. rewrite RS in *. unfold global_forces, global_disp, global_restrained in *.
  destruct (validate_bc (run cs []) Force); cbn [bind] in A; [|discriminate A]. destruct (validate_bc (run cs []) Displacement); cbn [bind] in B; [|discriminate B]. destruct (validate_bc (run cs []) Fixation); cbn [bind] in C; [|discriminate C].
  destruct (validate_bc (map _ _) Force); cbn [bind] in A'; [|discriminate A']. destruct (validate_bc (map _ _) Displacement); cbn [bind] in B'; [|discriminate B']. destruct (validate_bc (map _ _) Fixation); cbn [bind] in C'; [|discriminate C'].
  injection A as <-. injection B as <-. injection C as <-. injection A' as <-. injection B' as <-. injection C' as <-.
  split; [apply apply_unscaled; discriminate|]. split; [apply apply_unscaled; discriminate|]. apply dof_times, apply_scaled; [exact NT|apply zeros_times].
Qed.

(** No loads *)
Definition no_load (c : call) : Prop := match c with SetPointload _ _ _ _ => False | _ => True end.
Lemma exec_unloaded : forall c l, no_load c -> Forall (fun b => bc_kind b <> Force) l -> Forall (fun b => bc_kind b <> Force) (exec l c).
Proof.
  intros c l NL H. rewrite exec_request. assert (K : bc_kind (request c) <> Force) by (destruct c; cbn in *; [contradiction|discriminate|discriminate]). set (q := request c) in *. unfold update_bc. destruct (Nat.eqb _ 1).
  - induction H as [|b l Hb Hl IH]; [constructor|]. cbn [update_selected]. constructor; [|exact IH]. destruct (selects _ _ b); exact Hb.
  - apply Forall_app. split; [exact H|]. constructor; [exact K|constructor].
Qed.
Lemma run_unloaded : forall cs l, Forall no_load cs -> Forall (fun b => bc_kind b <> Force) l -> Forall (fun b => bc_kind b <> Force) (run cs l).
Proof. intros cs l H. unfold run. revert l. induction H as [|c cs Hc Hcs IH]; intros l HL; [exact HL|]. cbn [fold_left]. apply IH, exec_unloaded; assumption. Qed.
Lemma unloaded : forall nodes cs tf, Forall no_load cs -> global_forces nodes (run cs []) = Ok tf -> forall i, dof_vector tf i == 0.
Proof.
  intros nodes cs tf NL H. pose proof (run_unloaded cs [] NL (Forall_nil _)) as U. unfold global_forces in H. destruct (validate_bc _ _); cbn [bind] in H; [|discriminate H]. injection H as <-.
  assert (AZ : apply_bc int_cast nodes Force (run cs []) (zeros nodes) = zeros nodes).
  { unfold apply_bc. induction U as [|b l Hb Hl IH]; [reflexivity|]. cbn [fold_left]. replace (apply_one int_cast nodes Force (zeros nodes) b) with (zeros nodes); [exact IH|]. unfold apply_one. destruct (bc_kind b); [reflexivity|reflexivity|congruence]. }
  rewrite AZ. intros i. assert (G : forall (l : list Q) k, nth k (map (fun _ => 0) l) 0 == 0) by (intros l; induction l as [|x l IH]; intros [|k]; cbn; try reflexivity; apply IH).
  unfold dof_vector, zeros. cbn [col_x col_y col_z]. destruct (i mod 3)%nat as [|[|[|]]]; apply G.
Qed.

(** ** Degrees of freedom that are held, and not moved *)
Definition at_rest (nodes : list Q) (l : list bc) (i : nat) (a : axis) : Prop :=
  (exists b q, In b l /\ sends nodes Fixation i a b q) /\ ~ exists b q, In b l /\ sends nodes Displacement i a b q.
Lemma rest_flags : forall nodes l td tr i a, (i < length nodes)%nat -> global_disp nodes l = Ok td -> global_restrained nodes l = Ok tr ->
  (dof_flags tr (dof i a) = true <-> exists b q, In b l /\ sends nodes Fixation i a b q) /\ (~ dof_vector td (dof i a) == 0 <-> exists b q, In b l /\ sends nodes Displacement i a b q).
Proof.
  intros nodes l td tr i a L HD HR. unfold global_disp, global_restrained in *. destruct (validate_bc l Displacement); [|discriminate]. destruct (validate_bc l Fixation); [|discriminate].
  cbn [bind] in *. injection HD as <-. injection HR as <-. unfold dof_flags. rewrite negb_true_iff, Qeqb_false, !dof_col. split; [apply column_nonzero; [exact L|intros; discriminate]|apply column_nonzero; auto].
Qed.
