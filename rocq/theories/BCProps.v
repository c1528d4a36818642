(** Properties C01-C08 and C56: boundary conditions. *)
From Coq Require Import List QArith Qabs.
From Verif Require Import Base BCModel BCSpec BCProofs.
Import ListNotations.
Local Open Scope Q_scope.

(** C01, from an empty model. *)
Theorem C01_last_write_wins : forall h k e a q,
  holds (run h []) k e a q <-> last_given h k e a q.
Proof. exact last_write_wins. Qed.
Print Assumptions C01_last_write_wins.

(** C01, from any model that has at most one boundary condition per kind and elevation. *)
Theorem C01_last_write_wins_from_any_model : forall h l0 k e a q, one_per_place l0 ->
  (holds (run h l0) k e a q <->
   last_given h k e a q \/
   ((forall c q', In c h -> ~ gives k e a c q') /\ holds l0 k e a q)).
Proof. exact last_write_wins_from. Qed.
Print Assumptions C01_last_write_wins_from_any_model.

Definition ex_history : list call :=
  [ SetPointload (-5) (Some 100) None None; SetPointload (-5) None (Some 7) (Some 3);
    SetSupport (-20) (Some 1) None None; SetPointload (-5) (Some 250) None None;
    SetPointdisplacement 0 (Some 0.1) None None ].

Example C01_example :
  last_given ex_history Force (-5) AY 250 /\ last_given ex_history Force (-5) AZ 7 /\
  length (run ex_history []) = 3%nat /\ one_per_place [mkBC Force 1 (Some 2) None None].
Proof.
  split; [|split; [|split]].
  - exists (firstn 3 ex_history), (SetPointload (-5) (Some 250) None None),
      [SetPointdisplacement 0 (Some 0.1) None None].
    split; [reflexivity|]. split; [repeat split; reflexivity|].
    intros c' q' [<-|[]] (C & _); discriminate.
  - exists (firstn 1 ex_history), (SetPointload (-5) None (Some 7) (Some 3)), (skipn 2 ex_history).
    split; [reflexivity|]. split; [repeat split; reflexivity|].
    intros c' q' [<-|[<-|[<-|[]]]] (C & D & E); try discriminate.
  - reflexivity.
  - intros [|[|i]] [|[|j]] b c; simpl; try discriminate; reflexivity.
Qed.

(** C02: what is elsewhere keeps its index and value, and nothing new appears elsewhere. *)
Theorem C02_setter_frame : forall l c i b,
  ~ at_place (call_kind c) (call_elev c) b ->
  (nth_error l i = Some b <-> nth_error (exec l c) i = Some b).
Proof.
  exact (fun l c i b N => conj (fun H => exec_frame_nth l c i b H N)
                               (fun H => exec_frame_inv l c i b H N)).
Qed.
Print Assumptions C02_setter_frame.

Example C02_example :
  ~ at_place Force (-5) (mkBC Displacement (-5) None (Some 1) None) /\
  nth_error (exec [mkBC Force (-5) None (Some 2) None; mkBC Displacement (-5) None (Some 1) None]
                  (SetPointload (-5) (Some 9) None None)) 1
  = Some (mkBC Displacement (-5) None (Some 1) None).
Proof. split; [intros [C _]; discriminate|reflexivity]. Qed.

(** C02: an axis the call gives no value for keeps its value, also at the elevation and kind of the call. *)
Theorem C02_axes_not_given_are_kept : forall l c k e a q, one_per_place l -> (forall q', ~ gives k e a c q') ->
  (holds (exec l c) k e a q <-> holds l k e a q).
Proof.
  intros l c k e a q O N. change (exec l c) with (run [c] l). rewrite (last_write_wins_from [c] l k e a q O). split.
  - intros [(h1 & c' & h2 & E & G & _)|[_ H]]; [|exact H]. exfalso. destruct h1 as [|x h1]; simpl in E.
    + injection E as E _. subst c'. exact (N q G).
    + injection E as _ E. destruct h1; discriminate.
  - intros H. right. split; [|exact H]. intros c' q' [<-|[]]. apply N.
Qed.
Print Assumptions C02_axes_not_given_are_kept.

Example C02_axes_example : let l := run [SetPointload 0 (Some 5) (Some 7) None] [] in
  one_per_place l /\ holds l Force 0 AZ 7 /\ holds (exec l (SetPointload 0 (Some 6) None None)) Force 0 AZ 7.
Proof.
  cbv zeta. split; [apply run_one_per_place|]. split; (eexists; split; [left; reflexivity|split; [split; reflexivity|reflexivity]]).
Qed.

(** C03 *)
Theorem C03_histories_never_conflict : forall h k,
  one_per_place (run h []) /\ validate_bc (run h []) k = Ok tt.
Proof. exact (fun h k => conj (run_one_per_place h) (run_never_conflicts h k)). Qed.
Print Assumptions C03_histories_never_conflict.

Theorem C03_histories_keep_unambiguous_models_valid : forall h l0 k, one_per_place l0 ->
  one_per_place (run h l0) /\ validate_bc (run h l0) k = Ok tt.
Proof. exact run_valid_from. Qed.
Print Assumptions C03_histories_keep_unambiguous_models_valid.

(** C04: rejected exactly when two of a kind at one elevation disagree along an axis; accepted otherwise. *)
Theorem C04_rejected_iff_conflict : forall l k,
  (validate_bc l k = Err ValueError <-> conflict l k) /\
  (validate_bc l k = Ok tt <-> ~ conflict l k).
Proof. exact (fun l k => conj (validate_bc_iff l k) (validate_bc_ok_iff l k)). Qed.
Print Assumptions C04_rejected_iff_conflict.

Example C04_example :
  validate_bc [mkBC Force 0 None (Some 1) None; mkBC Force 0 None (Some 2) None] Force = Err ValueError /\
  validate_bc [mkBC Force 0 None (Some 1) None; mkBC Force 0 None (Some 1) None;
               mkBC Displacement 0 None (Some 2) None] Force = Ok tt.
Proof. split; reflexivity. Qed.

(** C05: for every list of boundary conditions and every node, the tabulated value is the value
    of the last one that is sent to this node (the first node within tolerance of its
    elevation), stored in the column's type, and zero when none is sent there. *)
Theorem C05_value_at_each_node : forall cast nodes k l a i, (i < length nodes)%nat ->
  (exists q, last_sent nodes k l i a q /\
     nth_error (col a (apply_bc cast nodes k l (zeros nodes))) i = Some (cast q)) \/
  ((forall b q, In b l -> ~ sends nodes k i a b q) /\
     nth_error (col a (apply_bc cast nodes k l (zeros nodes))) i = Some 0).
Proof. exact apply_bc_column. Qed.
Print Assumptions C05_value_at_each_node.

Theorem C05_one_bc_touches_one_node : forall cast nodes k t b a j,
  ~ (bc_kind b = k /\ maps_to nodes (bc_elev b) j) ->
  nth_error (col a (apply_one cast nodes k t b)) j = nth_error (col a t) j.
Proof. exact apply_one_frame. Qed.
Print Assumptions C05_one_bc_touches_one_node.

Theorem C05_at_most_one_node : forall nodes e i j,
  maps_to nodes e i -> maps_to nodes e j -> i = j.
Proof. exact maps_to_unique. Qed.
Print Assumptions C05_at_most_one_node.

Example C05_example :
  maps_to [0; -5; -10] (-4.9995) 1 /\
  global_disp [0; -5; -10] [mkBC Displacement (-4.9995) None (Some 0.25) None;
                            mkBC Displacement (-7) (Some 1) None None]
  = Ok (mkTable [0; 0; 0] [0; 0.25; 0] [0; 0; 0]).
Proof. split; [apply first_close_iff|]; vm_compute; reflexivity. Qed.

(** C06: a whole-number load given last reaches its node unchanged. *)
Theorem C06_whole_loads_reach_their_node : forall h nodes e a i q,
  maps_to nodes e i -> last_given h Force e a q -> ~ q == 0 -> (exists z, q == inject_Z z) ->
  (forall c, In c h -> call_kind c = Force -> maps_to nodes (call_elev c) i -> call_elev c == e) ->
  exists t v, global_forces nodes (run h []) = Ok t /\ nth_error (col a t) i = Some v /\ v == q.
Proof. exact load_kept. Qed.
Print Assumptions C06_whole_loads_reach_their_node.

(** C06 refuted in general: a load of 0.5 given by the user is applied as 0. *)
Theorem C06_load_truncated_refuted :
  exists h nodes e a i q t v,
    last_given h Force e a q /\ maps_to nodes e i /\
    global_forces nodes (run h []) = Ok t /\ nth_error (col a t) i = Some v /\ ~ v == q.
Proof. exact load_truncated. Qed.
Print Assumptions C06_load_truncated_refuted.

(** The truncation loses strictly less than one unit and never enlarges the load. *)
Theorem C06_truncation_bound : forall q, Qabs (int_cast q) <= Qabs q /\ Qabs (q - int_cast q) < 1.
Proof. exact load_magnitude. Qed.
Print Assumptions C06_truncation_bound.

Example C06_example :
  exists t, global_forces [0; -5; -20] (run ex_history []) = Ok t /\ col AY t = [0; 250; 0].
Proof. eexists; split; vm_compute; reflexivity. Qed.

(** C07: a non-zero prescribed displacement is tabulated and its degree of freedom supported. *)
Theorem C07_nonzero_displacement_supported : forall h nodes e a i q,
  maps_to nodes e i -> last_given h Displacement e a q -> ~ q == 0 ->
  (forall c, In c h -> call_kind c = Displacement -> maps_to nodes (call_elev c) i -> call_elev c == e) ->
  exists td tr, global_disp nodes (run h []) = Ok td /\ global_restrained nodes (run h []) = Ok tr /\
    nth_error (col a td) i = Some q /\
    nth_error (support_col (col a tr) (col a td)) i = Some true.
Proof. exact disp_enforced. Qed.
Print Assumptions C07_nonzero_displacement_supported.

Theorem C07_fixation_supported : forall h nodes e a i q,
  maps_to nodes e i -> last_given h Fixation e a q -> ~ q == 0 ->
  (forall c, In c h -> call_kind c = Fixation -> maps_to nodes (call_elev c) i -> call_elev c == e) ->
  exists td tr, global_disp nodes (run h []) = Ok td /\ global_restrained nodes (run h []) = Ok tr /\
    nth_error (support_col (col a tr) (col a td)) i = Some true.
Proof. exact support_enforced. Qed.
Print Assumptions C07_fixation_supported.

Example C07_example :
  exists td tr, global_disp [0; -5; -20] (run ex_history []) = Ok td /\
    global_restrained [0; -5; -20] (run ex_history []) = Ok tr /\
    support_col (col AY tr) (col AY td) = [true; false; true].
Proof. eexists; eexists; repeat split; vm_compute; reflexivity. Qed.

(** C07 refuted for zero: for every elevation on the mesh, prescribing a zero displacement
    leaves the degree of freedom unsupported. *)
Theorem C07_zero_displacement_refuted : forall nodes e i a, maps_to nodes e i ->
  exists td tr, global_disp nodes (run [SetPointdisplacement e (Some 0) (Some 0) (Some 0)] []) = Ok td /\
    global_restrained nodes (run [SetPointdisplacement e (Some 0) (Some 0) (Some 0)] []) = Ok tr /\
    nth_error (support_col (col a tr) (col a td)) i = Some false.
Proof. exact zero_displacement_free. Qed.
Print Assumptions C07_zero_displacement_refuted.

(** C08: models that hold no common object are independent under any interleaving of calls. *)
Theorem C08_isolation_without_sharing : forall ops h m1 m2, valid h m1 -> valid h m2 ->
  (forall a, In a m1 -> ~ In a m2) ->
  let '(h', m1', m2') := run2 ops (h, m1, m2) in
  deref h' m1' = run (calls_of true ops) (deref h m1) /\
  deref h' m2' = run (calls_of false ops) (deref h m2).
Proof. exact isolation. Qed.
Print Assumptions C08_isolation_without_sharing.

Example C08_example :
  let h := [mkBC Force 0 None (Some 1) None; mkBC Force 0 None (Some 2) None] in
  valid h [0%nat] /\ valid h [1%nat] /\ (forall a, In a [0%nat] -> ~ In a [1%nat]) /\
  run2 [(true, SetPointload 0 (Some 5) None None); (false, SetPointload 1 (Some 6) None None)]
       (h, [0%nat], [1%nat]) =
    ([mkBC Force 0 None (Some 5) None; mkBC Force 0 None (Some 2) None; mkBC Force 1 None (Some 6) None],
     [0%nat], [1%nat; 2%nat]).
Proof.
  split; [|split; [|split]].
  - intros a [<-|[]]; repeat constructor.
  - intros a [<-|[]]; repeat constructor.
  - intros a [<-|[]] [C|[]]; discriminate.
  - reflexivity.
Qed.

(** C08 refuted when one boundary-condition object is given to two models: a call on the first
    changes the loads of the second. *)
Theorem C08_shared_object_refuted :
  exists h m1 m2 c, valid h m1 /\ valid h m2 /\
    let '(h', _, m2') := run2 [(true, c)] (h, m1, m2) in deref h' m2' <> deref h m2.
Proof. exact shared_object_leaks. Qed.
Print Assumptions C08_shared_object_refuted.

(** C56 refuted: a model with two equal boundary conditions is valid, and one setter call makes
    it invalid (the setter appends a third, disagreeing one instead of updating). *)
Theorem C56_setter_on_valid_model_refuted :
  exists l c k, validate_bc l k = Ok tt /\ validate_bc (exec l c) k = Err ValueError.
Proof.
  exact (ex_intro _ [mkBC Force 0 None (Some 1) None; mkBC Force 0 None (Some 1) None]
    (ex_intro _ (SetPointload 0 (Some 2) None None) (ex_intro _ Force (conj eq_refl eq_refl)))).
Qed.
Print Assumptions C56_setter_on_valid_model_refuted.
