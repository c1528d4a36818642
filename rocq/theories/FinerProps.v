(** C04, C95: which conflicts the tables of boundary conditions refuse, the wall of every circular section, and which attributes
    the text report misses. *)
From Coq Require Import List Bool Arith QArith String.
From Verif Require Import Base BCModel BCSpec BCProofs BCProps PileModel AccessModel AccessSpec AccessProofs AccessProps.
Import ListNotations.
Local Open Scope Q_scope.

(** ** C04: each table is refused by a conflict between the conditions of its own kind, and by no other *)
Theorem C04_tables : forall nodes l,
  (global_forces nodes l = Err ValueError <-> conflict l Force) /\ (~ conflict l Force -> exists t, global_forces nodes l = Ok t) /\
  (global_disp nodes l = Err ValueError <-> conflict l Displacement) /\ (~ conflict l Displacement -> exists t, global_disp nodes l = Ok t) /\
  (global_restrained nodes l = Err ValueError <-> conflict l Fixation) /\ (~ conflict l Fixation -> exists t, global_restrained nodes l = Ok t).
Proof.
  intros nodes l.
  assert (G : forall k (A : Type) (t : A), (bind (validate_bc l k) (fun _ => Ok t) = Err ValueError <-> conflict l k) /\ (~ conflict l k -> exists t', bind (validate_bc l k) (fun _ => Ok t) = Ok t')).
  { intros k A t. destruct (C04_rejected_iff_conflict l k) as [[E1 E2] [O1 O2]]. split; [split|].
    - intros H. apply E1. destruct (validate_bc l k) as [x|e]; cbn [bind] in H; [discriminate H|injection H as ->; reflexivity].
    - intros H. rewrite (E2 H). reflexivity.
    - intros H. rewrite (O2 H). cbn [bind]. eauto. }
  unfold global_forces, global_disp, global_restrained.
  split; [apply G|]. split; [apply G|]. split; [apply G|]. split; [apply G|]. split; [apply G|apply G].
Qed.
Print Assumptions C04_tables.

Example C04_tables_example : let l := [mkBC Force 0 None (Some 1) None; mkBC Force 0 None (Some 2) None] in
  global_forces [0; -5] l = Err ValueError /\ exists t, global_disp [0; -5] l = Ok t.
Proof. split; [reflexivity|eexists; reflexivity]. Qed.

(** ** C95: a circular section always has a wall: the one given, or half of the diameter.  A pile of such sections is circular
    and is printed with these walls. *)
Theorem C95_walls : forall top bottom d t x, circular_section top bottom d t = Ok x ->
  (forall w, t = Some w -> ps_wall x = Some w) /\ (t = None -> exists w, ps_wall x = Some w /\ 2 * w == d).
Proof.
  intros top bottom d t x H. unfold circular_section in H. destruct (circular top bottom d t) as [s|e]; cbn [bind] in H; [|discriminate H].
  injection H as <-. cbn [ps_wall]. split; [intros w ->; reflexivity|]. intros ->. exists (d / 2). split; [reflexivity|field].
Qed.
Print Assumptions C95_walls.

Theorem C95_circular_pile : forall p, (forall x, In x p -> exists top bottom d t, circular_section top bottom d t = Ok x) ->
  shape p = Some "Circular"%string /\ exists r, str_pile p = Ok r /\ map pr_wall r = flat_map (fun x => [ps_wall x; ps_wall x]) p /\ forall y, In y r -> pr_wall y <> None.
Proof.
  intros p H. assert (W : forall x, In x p -> exists w, ps_wall x = Some w).
  { intros x I. destruct (H x I) as (top & bottom & d & t & E). destruct (C95_walls _ _ _ _ _ E) as [A B]. destruct t as [w|]; [exists w; auto|destruct (B eq_refl) as (w & B1 & _); eauto]. }
  assert (SH : shape p = Some "Circular"%string) by (apply C95_shape_iff; exact W). split; [exact SH|].
  destruct (C95_printing_never_fails p) as (r & R & _). pose proof (C95_printed_walls p r SH R) as P. exists r. split; [exact R|]. split; [exact P|].
  intros y I E. assert (J : In (pr_wall y) (map pr_wall r)) by (apply in_map; exact I). rewrite P in J. apply in_flat_map in J. destruct J as (x & X & J).
  destruct (W x X) as [w EW]. cbn in J. rewrite EW, E in J. destruct J as [J|[J|[]]]; discriminate J.
Qed.
Print Assumptions C95_circular_pile.

Example C95_walls_example : exists x y, circular_section 0 (-10) 2 None = Ok x /\ circular_section (-10) (-20) 2 (Some (1#20)) = Ok y /\ shape [x; y] = Some "Circular"%string /\ ps_wall y = Some (1#20).
Proof. do 2 eexists. split; [reflexivity|]. split; [reflexivity|]. split; reflexivity. Qed.

(** ** C95: of the attributes the text report looks up, exactly two do not exist *)
Theorem C95_missing_attributes : forall a, In a ["material"; "type"; "_young_modulus"; "data"]%string ->
  (attribute a = Err AttributeError <-> a = "type"%string \/ a = "_young_modulus"%string) /\ (attribute a = Ok tt <-> a = "material"%string \/ a = "data"%string).
Proof.
  intros a [<-|[<-|[<-|[<-|[]]]]]; (split; split; intros H; [try discriminate H|destruct H as [H|H]; try discriminate H|try discriminate H|destruct H as [H|H]; try discriminate H]); auto; reflexivity.
Qed.
Print Assumptions C95_missing_attributes.
