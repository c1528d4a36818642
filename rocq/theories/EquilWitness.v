(** One element of pile, guided at both ends, in soil with one elastic-plastic p-y curve. *)
From Coq Require Import List Bool Arith ZArith QArith Qabs Lia Lqa Setoid.
From Verif Require Import Base LinAlg PileModel BeamModel BeamSpec BeamProofs SolveModel SolveSpec SolveProofs ForceProofs SpringModel SpringSpec SpringProofs SoilProofs SpringProper SpringWitness WinklerModel WinklerSpec WinklerProofs WinklerProps BalanceSpec BalanceProofs BareModel BareSpec BareProofs EquilSpec EquilProofs.
Import ListNotations.
Local Open Scope Q_scope.

Definition plain_soil (c : curve) : wmodel := {| w_n := 1; w_mech := fun _ => mech0; w_L := fun _ => 1;
  w_py := Some (fun _ _ => c); w_tz := None; w_mt := None; w_mtc := fun _ => (0, 0, 0, 0); w_hb := None; w_mb := None; w_qz := None |}.
(** only the two lateral displacements are free *)
Definition guided (i : nat) : bool := match i with 1%nat | 4%nat => false | _ => true end.
Definition at_tip (f : Q) : vec := fun i => if Nat.eqb i 4 then f else 0.

Lemma plain_pile : forall c, sound_pile (plain_soil c) z0.
Proof.
  intros c. constructor.
  - intros e He. cbn in He. split; [|reflexivity]. destruct e as [|]; [reflexivity|lia].
  - intros e He. exact mech0_deforms.
Qed.

(** ** Two states of rest *)
Definition ep : curve := [(0, 0); (1#100, 100); (1#10, 100)].
Definition elastic : vec := of_list [0; 9#925; 0; 0; 66#4625; 0].
Definition plastic : vec := of_list [0; 193#16800; 0; 0; 193#12000; 0].

Definition rests (V : vec) : bool :=
  match build (plain_soil ep) V Secant with Ok K => Qeq_bool (mulv 6 K V 1%nat) 0 && Qeq_bool (mulv 6 K V 4%nat) 120 | Err _ => false end.

Lemma rests_balanced : forall V, rests V = true -> (forall i, (i < 6)%nat -> guided i = true -> V i == 0) -> balanced (plain_soil ep) (at_tip 120) zero guided V.
Proof.
  intros V H S. unfold rests in H. destruct (build (plain_soil ep) V Secant) as [K|] eqn:B; [|discriminate]. apply andb_true_iff in H. destruct H as [H1 H2].
  apply Qeq_bool_iff in H1. apply Qeq_bool_iff in H2. exists K. split; [exact B|]. split; [exact S|].
  intros i Hi Ri. destruct i as [|[|[|[|[|[|]]]]]]; try discriminate; [exact H1|exact H2].
Qed.

Lemma two_rests : balanced (plain_soil ep) (at_tip 120) zero guided elastic /\ balanced (plain_soil ep) (at_tip 120) zero guided plastic.
Proof.
  split; (apply rests_balanced; [vm_compute; reflexivity|]); intros i Hi Ri; destruct i as [|[|[|[|[|[|]]]]]]; try discriminate; try lia; reflexivity.
Qed.

(** ** A pile of which the springs never move *)
Definition soft (p : Q) : curve := [(0, 0); (p * (3#280000), p); (p * (3#280000) + 1, p)].
Definition slope0 (p : Q) : Q := Qabs ((p - 0) / (p * (3#280000) - 0)).

Lemma soft_curve : forall p, 0 < p -> lateral_curve (soft p) /\ forall q, In q (soft p) -> 0 <= snd q /\ snd q <= p.
Proof.
  intros p P. split.
  - split; [cbn; lia|]. split; [cbn; repeat split; lra|]. split; [cbn; repeat split; lra|]. split; reflexivity.
  - intros q [<-|[<-|[<-|[]]]]; cbn; lra.
Qed.

Lemma slope0_value : forall p, 0 < p -> slope0 p == 280000#3.
Proof.
  intros p P. unfold slope0. assert (E : (p - 0) / (p * (3#280000) - 0) == 280000#3) by (field; lra). rewrite E. reflexivity.
Qed.

Lemma soft_spring : forall p u k, 0 < p -> u == 0 -> py_spring u (soft p) k = Ok (slope0 p).
Proof.
  intros p u k P U. unfold py_spring.
  assert (D : Qeq_bool (qsum (map fst (soft p))) 0 = false).
  { apply not_true_iff_false. intros X. apply Qeq_bool_iff in X. cbn [soft map fst qsum fold_right] in X. lra. }
  rewrite D. unfold lateral_terms. assert (Z : Qeq_bool (Qabs u) 0 = true) by (apply Qeq_bool_iff; rewrite U; reflexivity). rewrite Z, orb_true_r.
  unfold ratio. cbn [pt soft nth fst snd].
  assert (D2 : Qeq_bool (p * (3#280000) - 0) 0 = false) by (apply not_true_iff_false; intros X; apply Qeq_bool_iff in X; lra). rewrite D2. reflexivity.
Qed.

Definition soft_matrix (p : Q) : mat := jit_build 1 (fun e => madd mech0 (elem_py 1 (fst (kpair [(slope0 p, slope0 p)] e)) (snd (kpair [(slope0 p, slope0 p)] e)))).

Lemma soft_build : forall p u k, 0 < p -> u 1%nat == 0 -> build (plain_soil (soft p)) u k = Ok (soft_matrix p).
Proof.
  intros p u k P U. unfold build, soil_elements. cbn [plain_soil w_py w_tz w_mt w_hb w_mb w_qz w_n w_mech w_L opt_res add_base].
  assert (S : py_stiffness (plain_soil (soft p)) (fun _ _ => soft p) u k = Ok [(slope0 p, slope0 p)]).
  { unfold py_stiffness. cbn [plain_soil w_n]. cbn [collect bind]. unfold both. rewrite !spring_disp_node by lia.
    change (spring_node 1 0 0) with 0%nat. change (spring_node 1 0 1) with 0%nat. cbn [Nat.mul Nat.add].
    rewrite !(soft_spring p (u 1%nat) k P U). reflexivity. }
  unfold add_base. cbn [opt_res]. fold (plain_soil (soft p)). rewrite S. reflexivity.
Qed.

Lemma soft_entry : forall p i j, 0 < p -> (i < 6)%nat -> (j < 6)%nat -> soft_matrix p i j == mech0 i j + elem_py 1 (280000#3) (280000#3) i j.
Proof.
  intros p i j P Hi Hj. unfold soft_matrix, jit_build. cbn [sum kpair nth fst snd]. unfold block, madd. cbn [Nat.mul Nat.leb Nat.add andb].
  rewrite !Nat.sub_0_r. destruct (Nat.ltb_spec i 6); [|lia]. destruct (Nat.ltb_spec j 6); [|lia]. cbn [andb].
  rewrite (elem_py_comp 1 _ _ _ _ (slope0_value p P) (slope0_value p P) i j). ring.
Qed.

Lemma soft_rows : forall p v, 0 < p -> v 0%nat == 0 -> v 2%nat == 0 -> v 3%nat == 0 -> v 5%nat == 0 ->
  mulv 6 (soft_matrix p) v 1%nat == (140000#3) * v 1%nat /\ mulv 6 (soft_matrix p) v 4%nat == (140000#3) * v 4%nat.
Proof.
  intros p v P Z0 Z2 Z3 Z5. unfold mulv. cbn [sum]. rewrite Z0, Z2, Z3, Z5, !(soft_entry p _ _ P) by lia.
  assert (E : mech0 1%nat 1%nat + elem_py 1 (280000#3) (280000#3) 1%nat 1%nat == 140000#3) by (vm_compute; reflexivity).
  assert (E1 : mech0 1%nat 4%nat + elem_py 1 (280000#3) (280000#3) 1%nat 4%nat == 0) by (vm_compute; reflexivity).
  assert (E2 : mech0 4%nat 1%nat + elem_py 1 (280000#3) (280000#3) 4%nat 1%nat == 0) by (vm_compute; reflexivity).
  assert (E3 : mech0 4%nat 4%nat + elem_py 1 (280000#3) (280000#3) 4%nat 4%nat == 140000#3) by (vm_compute; reflexivity).
  rewrite E, E1, E2, E3. split; ring.
Qed.

Lemma supports_guided : forall i, supports_of guided zero i = guided i.
Proof. intros i. unfold supports_of, zero. change (negb (Qeq_bool 0 0)) with false. apply orb_false_r. Qed.

Lemma soft_stable : forall p, 0 < p -> stable 6 (soft_matrix p) (supports_of guided zero).
Proof.
  intros p P v S E.
  assert (Z : forall i, (i < 6)%nat -> guided i = true -> v i == 0) by (intros i Hi Gi; apply S; auto; rewrite supports_guided; exact Gi).
  destruct (soft_rows p v P) as [R1 R4]; try (apply Z; [lia|reflexivity]).
  pose proof (E 1%nat ltac:(lia) eq_refl) as E1. pose proof (E 4%nat ltac:(lia) eq_refl) as E4. rewrite R1 in E1. rewrite R4 in E4.
  intros i Hi. destruct i as [|[|[|[|[|[|]]]]]]; try lia; try (apply Z; [lia|reflexivity]); lra.
Qed.

Lemma unmoved : forall solve p f max_iter, solver_ok solve -> 0 < p -> ~ f == 0 -> (1 <= max_iter)%nat ->
  exists o v R, winkler_model solve (plain_soil (soft p)) (at_tip f) zero guided max_iter = Ok o /\ o_iter o = 2%nat /\ o_d o = Some v /\ o_Q o = Some R /\
    v 1%nat == 0 /\ v 4%nat == (3#140000) * f /\ R 1%nat == 0 /\ R 4%nat == 0.
Proof.
  intros solve p f mi SO P NZ Hm. set (M := plain_soil (soft p)).
  destruct (proj2 (solve_equations_succeeds solve 6 (soft_matrix p) (at_tip f) zero (supports_of guided zero) SO) (soft_stable p P)) as [[U1 R1] E].
  destruct (solve_equations_sound _ _ _ _ _ _ _ _ SO E) as (EQ & RZ & US).
  assert (Z : forall i, (i < 6)%nat -> guided i = true -> U1 i == 0) by (intros i Hi Gi; rewrite US; [reflexivity|exact Hi|rewrite supports_guided; exact Gi]).
  destruct (soft_rows p U1 P) as [A1 A4]; try (apply Z; [lia|reflexivity]).
  pose proof (EQ 1%nat ltac:(lia)) as E1. pose proof (EQ 4%nat ltac:(lia)) as E4. rewrite A1 in E1. rewrite A4 in E4.
  pose proof (RZ 1%nat ltac:(lia) eq_refl) as R11. pose proof (RZ 4%nat ltac:(lia) eq_refl) as R14. rewrite R11 in E1. rewrite R14 in E4.
  unfold at_tip in E1, E4. cbn [Nat.eqb] in E1, E4. assert (V1 : U1 1%nat == 0) by lra.
  assert (SM : WinklerProofs.same 6 (soft_matrix p) (soft_matrix p)) by (intros ? ? ? ?; reflexivity).
  destruct (C35_linear_range solve M (at_tip f) zero guided (soft_matrix p) U1 R1 (soft_matrix p) (soft_matrix p) SO) with (max_iter := mi) as (o & v & R & H1 & H2 & H3 & H4 & H5 & H6); auto.
  - apply soft_build; [exact P|reflexivity].
  - apply soft_build; auto.
  - apply soft_build; auto.
  - exists 4%nat. split; [cbn; lia|]. rewrite R14. cbn. intros X. apply NZ. rewrite X. ring.
  - exists o, v, R. split; [exact H1|]. split; [exact H2|]. split; [exact H3|]. split; [exact H5|].
    rewrite (H4 1%nat), (H4 4%nat), (H6 1%nat), (H6 4%nat) by (cbn; lia). split; [exact V1|]. split; [lra|]. split; assumption.
Qed.
