(** Setter calls that differ in one direction only leave the other direction of the tables alone;
    the elements of every pile keep the two directions apart. *)
From Coq Require Import List Bool Arith ZArith QArith Qabs Lia.
From Verif Require Import Base LinAlg BCModel PileModel StressModel BeamModel BeamProofs SolveModel SpringModel SpringProofs SpringProper WholeModel WholeProofs ApartSpec ApartProofs.
Import ListNotations.
Local Open Scope Q_scope.

Section Calls.
Variable D : nat -> bool.
Variables ax ay az : bool.   (** whether [D] holds rotation, movement across, movement along *)
Hypothesis DX : forall i, (i mod 3 = 2)%nat -> D i = ax.
Hypothesis DY : forall i, (i mod 3 = 1)%nat -> D i = ay.
Hypothesis DZ : forall i, (i mod 3 = 0)%nat -> D i = az.

Definition bc_alike (b b' : bc) : Prop := bc_kind b = bc_kind b' /\ bc_elev b = bc_elev b' /\
  (ax = true -> bc_x b = bc_x b') /\ (ay = true -> bc_y b = bc_y b') /\ (az = true -> bc_z b = bc_z b').
Definition request (c : call) : bc := match c with SetPointload e y z x => mkBC Force e x y z | SetPointdisplacement e y z x => mkBC Displacement e x y z | SetSupport e y z x => mkBC Fixation e x y z end.
Definition call_alike (c c' : call) : Prop := bc_alike (request c) (request c').

Lemma exec_request : forall l c, exec l c = update_bc l (bc_elev (request c)) (bc_x (request c)) (bc_y (request c)) (bc_z (request c)) (bc_kind (request c)).
Proof using. intros l []; reflexivity. Qed.

Lemma select_alike : forall k e b b', bc_alike b b' -> selects k e b = selects k e b'.
Proof using. intros k e b b' (A & B & _). unfold selects. rewrite A, B. reflexivity. Qed.
Lemma filter_alike : forall k e l l', Forall2 bc_alike l l' -> length (filter (selects k e) l) = length (filter (selects k e) l').
Proof using. intros k e l l' H. induction H as [|b b' t t' Hb Ht IH]; [reflexivity|]. cbn [filter]. rewrite (select_alike k e b b' Hb). destruct (selects k e b'); cbn; rewrite IH; reflexivity. Qed.

Lemma exec_alike : forall c c' l l', call_alike c c' -> Forall2 bc_alike l l' -> Forall2 bc_alike (exec l c) (exec l' c').
Proof using.
  intros c c' l l' HC H. rewrite !exec_request. destruct HC as (A & B & X & Y & Z). set (q := request c) in *. set (q' := request c') in *. rewrite <- A, <- B.
  unfold update_bc. rewrite (filter_alike (bc_kind q) (bc_elev q) l l' H). destruct (Nat.eqb _ 1).
  - induction H as [|b b' t t' Hb Ht IH]; [constructor|]. cbn [update_selected]. rewrite (select_alike _ _ b b' Hb). constructor; [|exact IH]. destruct (selects _ _ b'); [|exact Hb].
    destruct Hb as (A1 & B1 & X1 & Y1 & Z1). unfold merge_bc, bc_alike. cbn. split; [exact A1|]. split; [exact B1|]. repeat split; intros E; [rewrite (X E), (X1 E)|rewrite (Y E), (Y1 E)|rewrite (Z E), (Z1 E)]; reflexivity.
  - apply Forall2_app; [exact H|]. constructor; [|constructor]. unfold bc_alike. cbn. repeat split; auto.
Qed.
Lemma run_alike : forall cs cs', Forall2 call_alike cs cs' -> forall l l', Forall2 bc_alike l l' -> Forall2 bc_alike (run cs l) (run cs' l').
Proof using. intros cs cs' H. unfold run. induction H as [|c c' t t' Hc Ht IH]; intros l l' HL; [exact HL|]. cbn [fold_left]. apply IH. apply exec_alike; auto. Qed.

Definition table_alike (t t' : table) : Prop := (ax = true -> col_x t = col_x t') /\ (ay = true -> col_y t = col_y t') /\ (az = true -> col_z t = col_z t').
Lemma apply_alike : forall cast nodes k l l' t t', Forall2 bc_alike l l' -> table_alike t t' -> table_alike (apply_bc cast nodes k l t) (apply_bc cast nodes k l' t').
Proof using.
  intros cast nodes k l l' t t' H. unfold apply_bc. revert t t'. induction H as [|b b' m m' Hb Hm IH]; intros t t' HT; [exact HT|]. cbn [fold_left]. apply IH.
  destruct Hb as (A & B & X & Y & Z). unfold apply_one. rewrite A, B. destruct (kind_eqb _ k); [|exact HT]. destruct (first_close nodes (bc_elev b')) as [i|]; [|exact HT].
  destruct HT as (TX & TY & TZ). unfold table_alike. cbn. repeat split; intros E; [rewrite (X E), (TX E)|rewrite (Y E), (TY E)|rewrite (Z E), (TZ E)]; reflexivity.
Qed.
Lemma dof_alike : forall n t t', table_alike t t' -> agree n D (dof_vector t) (dof_vector t').
Proof using DX DY DZ.
  intros n t t' (X & Y & Z) i _ Di. unfold dof_vector. pose proof (Nat.mod_upper_bound i 3 ltac:(lia)) as U.
  destruct (i mod 3)%nat as [|[|[|]]] eqn:E; [|..|lia]; [rewrite Z|rewrite Y|rewrite X]; try reflexivity; [rewrite <- (DZ i E)|rewrite <- (DY i E)|rewrite <- (DX i E)]; exact Di.
Qed.
Lemma flags_alike : forall n t t', table_alike t t' -> held_alike n D (dof_flags t) (dof_flags t').
Proof using DX DY DZ. intros n t t' H i Hi Di. unfold dof_flags. rewrite (Qeqb_comp (dof_vector t i) (dof_vector t' i) 0 0 (dof_alike n t t' H i Hi Di)) by reflexivity. reflexivity. Qed.
Lemma zeros_alike : forall nodes, table_alike (zeros nodes) (zeros nodes).
Proof using. intros. repeat split. Qed.

Lemma tables_alike : forall nodes l l' n tf tf' td td' tr tr', Forall2 bc_alike l l' ->
  global_forces nodes l = Ok tf -> global_forces nodes l' = Ok tf' -> global_disp nodes l = Ok td -> global_disp nodes l' = Ok td' -> global_restrained nodes l = Ok tr -> global_restrained nodes l' = Ok tr' ->
  agree n D (dof_vector tf) (dof_vector tf') /\ agree n D (dof_vector td) (dof_vector td') /\ held_alike n D (dof_flags tr) (dof_flags tr').
Proof using DX DY DZ.
  intros nodes l l' n tf tf' td td' tr tr' H A A' B B' C C'. unfold global_forces, global_disp, global_restrained in *.
  destruct (validate_bc l Force); cbn [bind] in A; [|discriminate A]. destruct (validate_bc l' Force); cbn [bind] in A'; [|discriminate A'].
  destruct (validate_bc l Displacement); cbn [bind] in B; [|discriminate B]. destruct (validate_bc l' Displacement); cbn [bind] in B'; [|discriminate B'].
  destruct (validate_bc l Fixation); cbn [bind] in C; [|discriminate C]. destruct (validate_bc l' Fixation); cbn [bind] in C'; [|discriminate C'].
  injection A as <-. injection A' as <-. injection B as <-. injection B' as <-. injection C as <-. injection C' as <-.
  split; [|split]; [apply dof_alike|apply dof_alike|apply flags_alike]; apply apply_alike; auto using zeros_alike.
Qed.
End Calls.

Lemma across_alike : forall cs cs', Forall2 same_call_across cs cs' -> Forall2 (call_alike true true false) cs cs'.
Proof.
  intros cs cs' H. induction H as [|c c' t t' Hc Ht IH]; constructor; [|exact IH].
  destruct c, c'; cbn in Hc; try contradiction; destruct Hc as (-> & -> & ->); unfold call_alike, bc_alike; cbn; repeat split; discriminate.
Qed.
Lemma along_alike : forall cs cs', Forall2 same_call_along cs cs' -> Forall2 (call_alike false false true) cs cs'.
Proof.
  intros cs cs' H. induction H as [|c c' t t' Hc Ht IH]; constructor; [|exact IH].
  destruct c, c'; cbn in Hc; try contradiction; destruct Hc as (-> & ->); unfold call_alike, bc_alike; cbn; repeat split; discriminate.
Qed.
Lemma across_mod : (forall i, (i mod 3 = 2)%nat -> across i = true) /\ (forall i, (i mod 3 = 1)%nat -> across i = true) /\ (forall i, (i mod 3 = 0)%nat -> across i = false).
Proof. unfold across. repeat split; intros i ->; reflexivity. Qed.
Lemma along_mod : (forall i, (i mod 3 = 2)%nat -> along i = false) /\ (forall i, (i mod 3 = 1)%nat -> along i = false) /\ (forall i, (i mod 3 = 0)%nat -> along i = true).
Proof. unfold along. repeat split; intros i ->; reflexivity. Qed.

(** ** Elements of a pile *)
Lemma elem_matrix_uncoupled : forall ty circ E nu p elems e k, elem_matrix ty circ E nu p elems e = Ok (Some k) -> uncoupled k.
Proof.
  intros ty circ E nu p elems e k H. unfold elem_matrix in H. destruct ty.
  - destruct (elem_value s_inertia p elems e); [|discriminate H]. destruct (elem_value s_area p elems e); [|discriminate H].
    destruct (elem_mech _ _ _ _ _ _ _ _ _) as [k0|] eqn:EM; cbn [bind] in H; [|discriminate H]. injection H as <-. exact (elem_mech_uncoupled _ _ _ _ _ _ _ _ _ _ EM).
  - destruct circ; [|discriminate H]. destruct (elem_value s_inertia p elems e); [|discriminate H]. destruct (elem_value s_area p elems e); [|discriminate H].
    destruct (elem_value s_width p elems e); [|discriminate H]. destruct (elem_value thickness p elems e); [|discriminate H].
    destruct (elem_mech _ _ _ _ _ _ _ _ _) as [k0|] eqn:EM; cbn [bind] in H; [|discriminate H]. injection H as <-. exact (elem_mech_uncoupled _ _ _ _ _ _ _ _ _ _ EM).
Qed.
Lemma collect_all : forall A (P : A -> Prop) n (f : nat -> res A) l, collect n f = Ok l -> (forall e a, f e = Ok a -> P a) -> Forall P l.
Proof.
  intros A P. induction n as [|n IH]; intros f l H HP; cbn [collect] in H; [injection H as <-; constructor|].
  destruct (collect n f) as [l0|] eqn:E; cbn [bind] in H; [|discriminate H]. destruct (f n) as [a|] eqn:EA; cbn [bind] in H; [|discriminate H]. injection H as <-.
  apply Forall_app. split; [apply (IH f); auto|]. constructor; [exact (HP n a EA)|constructor].
Qed.
Lemma all_some_all : forall A (P : A -> Prop) l r, all_some l = Some r -> Forall (fun o => match o with Some a => P a | None => True end) l -> Forall P r.
Proof.
  intros A P. induction l as [|[a|] t IH]; intros r H HL; cbn in H; [injection H as <-; constructor| |discriminate H].
  destruct (all_some t) as [r0|] eqn:E; cbn in H; [|discriminate H]. injection H as <-. inversion HL; subst. constructor; [assumption|]. apply IH; auto.
Qed.
Lemma elem_matrices_uncoupled : forall ty circ E nu p elems ks, elem_matrices ty circ E nu p elems = Ok (Some ks) -> forall e, uncoupled (nth e ks no_mat).
Proof.
  intros ty circ E nu p elems ks H e. unfold elem_matrices in H. destruct (collect _ _) as [l|] eqn:EC; cbn [bind] in H; [|discriminate H]. injection H as H.
  assert (FA : Forall uncoupled ks).
  { eapply all_some_all; [exact H|]. eapply collect_all; [exact EC|]. intros e0 [k|] EK; [exact (elem_matrix_uncoupled _ _ _ _ _ _ _ _ EK)|exact Logic.I]. }
  destruct (Nat.lt_ge_cases e (length ks)) as [L|L]; [apply (proj1 (Forall_forall _ _) FA), nth_In, L|]. rewrite (nth_overflow _ _ L). intros i j _. reflexivity.
Qed.
