(** A pile that nothing pushes in one direction does not move in that direction: setter calls, solver and iteration. *)
From Coq Require Import List Bool Arith ZArith QArith Qabs Lia Lqa Setoid.
From Verif Require Import Base LinAlg BCModel PileModel BeamModel BeamProofs SolveModel SolveSpec SolveProofs SpringModel SpringProofs SpringProper WinklerModel WholeModel ApartSpec ApartProofs ApartCalls.
Import ListNotations.
Local Open Scope Q_scope.

(** Nothing in the degrees of freedom [D] *)
Definition still (n : nat) (D : nat -> bool) (v : vec) : Prop := forall i, (i < n)%nat -> D i = true -> v i == 0.

Section Still.
Variables (n : nat) (D : nat -> bool).
Hypothesis DC : forall i j, D i <> D j -> along i <> along j.
Variables (solve : solver) (r : nat -> bool).
Hypothesis SO : solver_ok solve.

Lemma mulv_still : forall K v, uncoupled K -> still n D v -> still n D (mulv n K v).
Proof using DC.
  intros K v U SV i Hi Di. unfold mulv. apply sum_zero. intros j Hj. destruct (D j) eqn:Dj; [rewrite (SV j Hj Dj); ring|].
  rewrite (U i j) by (apply DC; congruence). ring.
Qed.

Lemma solve_still : forall K F U u R, uncoupled K -> still n D F -> still n D U -> solve_equations solve n K F U r = Some (u, R) -> still n D u /\ still n D R.
Proof using DC SO.
  intros K F U u R UC HF HU E. assert (ST : stable n K r) by (apply (solve_equations_succeeds solve n K F U r SO); eauto).
  destruct (solve_equations_sound _ _ _ _ _ _ _ _ SO E) as (A1 & A2 & A3). set (x := fun i => if D i then u i else 0).
  assert (KX : forall i, (i < n)%nat -> D i = true -> mulv n K x i == mulv n K u i).
  { intros i Hi Di. unfold mulv. apply sum_ext. intros j Hj. unfold x. destruct (D j) eqn:Dj; [reflexivity|]. rewrite (UC i j) by (apply DC; congruence). ring. }
  assert (KZ : forall i, (i < n)%nat -> D i = false -> mulv n K x i == 0).
  { intros i Hi Di. unfold mulv. apply sum_zero. intros j Hj. unfold x. destruct (D j) eqn:Dj; [|ring]. rewrite (UC i j) by (apply DC; congruence). ring. }
  assert (XZ : forall i, (i < n)%nat -> x i == 0).
  { apply ST.
    - intros i Hi Ri. unfold x. destruct (D i) eqn:Di; [|reflexivity]. rewrite (A3 i Hi Ri). apply HU; auto.
    - intros i Hi Ri. destruct (D i) eqn:Di; [|apply KZ; auto]. rewrite (KX i Hi Di), (A1 i Hi), (A2 i Hi Ri), (HF i Hi Di). ring. }
  assert (SU : still n D u) by (intros i Hi Di; specialize (XZ i Hi); unfold x in XZ; rewrite Di in XZ; exact XZ).
  split; [exact SU|]. intros i Hi Di. pose proof (mulv_still K u UC SU i Hi Di) as MM. rewrite (A1 i Hi), (HF i Hi Di) in MM. lra.
Qed.

Variables (bld : vec -> kind -> res mat) (F U0 : vec).
Hypothesis HB : forall d k K, bld d k = Ok K -> uncoupled K.
Hypothesis HF : still n D F.
Hypothesis HU : still n D U0.

Definition still_outcome (o : outcome) : Prop := Forall (still n D) (o_hist o) /\ (forall d, o_d o = Some d -> still n D d) /\ (forall q, o_Q o = Some q -> still n D q).

Lemma loop_still : forall fuel iter d U K Rg last o, still n D d -> still n D U -> uncoupled K -> still n D Rg -> still_outcome last ->
  loop solve n bld F U0 r fuel iter d U K Rg last = Ok o -> still_outcome o.
Proof using DC SO HB HF HU.
  induction fuel as [|fuel IH]; intros iter d U K Rg last o Hd HUU HK HR HL H; cbn [loop] in H; [injection H as <-; exact HL|].
  destruct (solve_equations solve n K Rg U r) as [[u R]|] eqn:SE.
  2:{ injection H as <-. destruct HL as (A & _). split; [exact A|]. split; cbn; discriminate. }
  destruct (solve_still K Rg U u R HK HR HUU SE) as [Su SR]. cbv zeta in H. set (d1 := fun i => d i + u i) in *.
  assert (Hd1 : still n D d1) by (intros i Hi Di; unfold d1; rewrite (Hd i Hi Di), (Su i Hi Di); ring).
  assert (HH : Forall (still n D) (d1 :: o_hist last)) by (constructor; [exact Hd1|apply HL]).
  destruct (bld d1 Secant) as [Ks|es] eqn:ES; cbn [bind] in H; [|discriminate H].
  set (Rn := fun i => F i - R i + - mulv n Ks d1 i) in *.
  assert (HRN : still n D Rn) by (intros i Hi Di; unfold Rn; rewrite (HF i Hi Di), (SR i Hi Di), (mulv_still Ks d1 (HB _ _ _ ES) Hd1 i Hi Di); ring).
  destruct (Qltb (free_norm2 n r Rn) (tol2 n F R) && (1 <? S iter)%nat)%bool.
  - destruct (solve_equations solve n Ks F U0 r) as [[uf Rf]|] eqn:SF; [|discriminate H]. injection H as <-.
    split; [exact HH|]. cbn. split; [intros x X; injection X as <-; exact Hd1|intros x X; injection X as <-; exact (proj2 (solve_still Ks F U0 uf Rf (HB _ _ _ ES) HF HU SF))].
  - destruct (Nat.eqb (S iter) 100).
    + injection H as <-. split; [exact HH|]. split; cbn; discriminate.
    + destruct (bld d1 Tangent) as [Kt|et] eqn:ET; cbn [bind] in H; [|discriminate H].
      refine (IH (S iter) d1 zero Kt Rn _ o Hd1 _ (HB _ _ _ ET) HRN _ H); [intros i _ _; reflexivity|].
      split; [exact HH|]. cbn. split; intros x X; injection X as <-; [exact Hd1|exact SR].
Qed.
Lemma winkler_still : forall mi o, winkler solve n bld F U0 r mi = Ok o -> still_outcome o.
Proof using DC SO HB HF HU.
  intros mi o H. unfold winkler in H. destruct (bld zero Initial) as [K|] eqn:E; cbn [bind] in H; [|discriminate H].
  refine (loop_still _ _ _ _ _ _ _ o _ HU (HB _ _ _ E) HF _ H); [intros i _ _; reflexivity|].
  split; [constructor|]. cbn. split; intros x X; [injection X as <-; intros i _ _; reflexivity|discriminate X].
Qed.
End Still.

(** ** Setter calls *)
Section Calls.
Variable D : nat -> bool.
Variables ax ay az : bool.
Hypothesis DX : forall i, (i mod 3 = 2)%nat -> D i = ax.
Hypothesis DY : forall i, (i mod 3 = 1)%nat -> D i = ay.
Hypothesis DZ : forall i, (i mod 3 = 0)%nat -> D i = az.

Definition nothing (o : option Q) : Prop := match o with None => True | Some q => q == 0 end.
Definition bc_still (b : bc) : Prop := bc_kind b = Fixation \/ (ax = true -> nothing (bc_x b)) /\ (ay = true -> nothing (bc_y b)) /\ (az = true -> nothing (bc_z b)).

Lemma kind_eqb_true : forall a b, kind_eqb a b = true -> a = b.
Proof using. intros [] []; cbn; congruence. Qed.

Lemma merge_nothing : forall a b, nothing a -> nothing b -> nothing (merge_val a b).
Proof using. intros [a|] b; cbn; auto. Qed.
Lemma exec_still : forall c l, bc_still (request c) -> Forall bc_still l -> Forall bc_still (exec l c).
Proof using.
  intros c l HC HL. rewrite exec_request. set (q := request c) in *. unfold update_bc. destruct (Nat.eqb _ 1).
  - induction HL as [|b t Hb Ht IH]; [constructor|]. cbn [update_selected]. constructor; [|exact IH]. destruct (selects _ _ b) eqn:E; [|exact Hb].
    unfold selects in E. apply andb_true_iff in E. destruct E as [_ E]. apply kind_eqb_true in E.
    unfold bc_still, merge_bc. cbn [bc_kind bc_x bc_y bc_z]. destruct HC as [HC|(X & Y & Z)]; [left; congruence|]. destruct Hb as [Hb|(X1 & Y1 & Z1)]; [left; exact Hb|].
    right. repeat split; intros; apply merge_nothing; auto.
  - apply Forall_app. split; [exact HL|]. constructor; [|constructor]. destruct HC as [HC|HC]; [left; exact HC|right; exact HC].
Qed.
Lemma run_still : forall cs l, Forall (fun c => bc_still (request c)) cs -> Forall bc_still l -> Forall bc_still (run cs l).
Proof using. intros cs l H. unfold run. revert l. induction H as [|c t Hc Ht IH]; intros l HL; [exact HL|]. cbn [fold_left]. apply IH, exec_still; auto. Qed.

Definition column_still (c : list Q) : Prop := Forall (fun q => q == 0) c.
Definition table_still (t : table) : Prop := (ax = true -> column_still (col_x t)) /\ (ay = true -> column_still (col_y t)) /\ (az = true -> column_still (col_z t)).
Lemma write_still : forall cast c i o, column_still c -> nothing o -> column_still (write cast c i o).
Proof using. intros cast c i [q|] H N; [|exact H]. cbn in N. unfold write, truthy. destruct (Qeq_bool q 0) eqn:E; [exact H|]. apply Qeq_bool_neq in E. contradiction. Qed.
Lemma apply_still : forall cast nodes k l t, k <> Fixation -> Forall bc_still l -> table_still t -> table_still (apply_bc cast nodes k l t).
Proof using.
  intros cast nodes k l t NK HL. unfold apply_bc. revert t. induction HL as [|b m Hb Hm IH]; intros t HT; [exact HT|]. cbn [fold_left]. apply IH.
  unfold apply_one. destruct (kind_eqb (bc_kind b) k) eqn:E; [|exact HT]. apply kind_eqb_true in E. destruct Hb as [Hb|(X & Y & Z)]; [congruence|].
  destruct (first_close nodes (bc_elev b)) as [i|]; [|exact HT]. destruct HT as (TX & TY & TZ). unfold table_still. cbn [col_x col_y col_z]. repeat split; intros; apply write_still; auto.
Qed.
Lemma zeros_still : forall nodes, table_still (zeros nodes).
Proof using. intros nodes. assert (C : column_still (map (fun _ => 0) nodes)) by (induction nodes; constructor; [reflexivity|assumption]). unfold table_still. cbn. auto. Qed.
Lemma dof_still : forall n t, table_still t -> still n D (dof_vector t).
Proof using DX DY DZ.
  intros n t (X & Y & Z) i _ Di. assert (G : forall c k, column_still c -> nth k c 0 == 0) by (intros c; induction c as [|a c IH]; intros [|k] H; cbn; try reflexivity; inversion H; subst; auto).
  unfold dof_vector. pose proof (Nat.mod_upper_bound i 3 ltac:(lia)) as U.
  destruct (i mod 3)%nat as [|[|[|]]] eqn:E; [|..|lia]; apply G; [apply Z; rewrite <- (DZ i E)|apply Y; rewrite <- (DY i E)|apply X; rewrite <- (DX i E)]; exact Di.
Qed.
Lemma tables_still : forall nodes l n tf td, Forall bc_still l -> global_forces nodes l = Ok tf -> global_disp nodes l = Ok td -> still n D (dof_vector tf) /\ still n D (dof_vector td).
Proof using DX DY DZ.
  intros nodes l n tf td H A B. unfold global_forces, global_disp in *.
  destruct (validate_bc l Force); cbn [bind] in A; [|discriminate A]. destruct (validate_bc l Displacement); cbn [bind] in B; [|discriminate B]. injection A as <-. injection B as <-.
  split; apply dof_still; apply apply_still; auto using zeros_still; discriminate.
Qed.
End Calls.
