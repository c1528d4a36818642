(** Property C148: beyond the elastic range a stiffer spring may let a load move its own degree of freedom further. *)
From Coq Require Import List Bool Arith ZArith QArith Qabs Lia Lqa Setoid.
From Verif Require Import Base LinAlg PileModel BeamModel BeamSpec BeamProofs SolveModel SolveSpec SolveProofs ForceProofs SpringModel SpringSpec SpringProofs SoilProofs SpringProper SpringWitness WinklerModel WinklerSpec WinklerProofs WinklerWitness BalanceSpec BalanceProofs EquilSpec EquilProofs EquilWitness EquilProps ElasticSpec WorkSpec.
Import ListNotations.
Local Open Scope Q_scope.

(** Two elements with springs at the tip only, the two upper nodes held in place and the head turned by a moment.  The base shear is elastic, then
    plastic; the base moment is elastic. *)
Definition shear_c : curve := [(0, 0); (1#1000, 100); (1#10, 100)].
Definition turn_c (m : Q) : curve := [(0, 0); (1#10, m)].
Definition base_pile (m : Q) : wmodel := {| w_n := 2; w_mech := fun _ => mech0; w_L := fun _ => 1;
  w_py := None; w_tz := None; w_mt := None; w_mtc := fun _ => (0, 0, 0, 0); w_hb := Some shear_c; w_mb := Some (turn_c m); w_qz := None |}.
Definition upper_held (i : nat) : bool := match i with 0%nat | 1%nat | 4%nat => true | _ => false end.
Definition twist : vec := of_list [0; 0; -(360); 0; 0; 0; 0; 0; 0].
Definition turned : vec := of_list [0; 0; -(21#200); 0; 0; 3#100; 0; 1#600; -(1#100)].
Definition turned_more : vec := of_list [0; 0; -(29#275); 0; 0; 17#550; 0; 13#3300; -(7#1100)].
Definition z2 (a : nat) : Q := - inject_Z (Z.of_nat a).

Lemma base_pile_sound : forall m, sound_pile (base_pile m) z2.
Proof.
  intros c. constructor.
  - intros e He. cbn in He. split; [|reflexivity]. destruct e as [|[|]]; [reflexivity|reflexivity|lia].
  - intros e He. exact mech0_deforms.
Qed.

Lemma base_pile_curves : forall m, 0 <= m -> base_curves (base_pile m).
Proof.
  intros m Hm. split; [intros c E; discriminate E|]. split; intros c E; cbn [w_hb w_mb base_pile] in E.
  - assert (c = shear_c) by congruence. subst c. split; [cbn; lia|]. split; [repeat split|]. split; [vm_compute; repeat split; discriminate|split; reflexivity].
  - assert (c = turn_c m) by congruence. subst c. split; [cbn; lia|]. split; [repeat split|]. split; [|split; reflexivity].
    unfold turn_c. cbn. repeat split; try exact Hm; try discriminate.
Qed.

Definition rests_at (M : wmodel) (V : vec) : bool :=
  match build M V Secant with Ok K => forallb (fun i => Qeq_bool (mulv 9 K V i) (twist i)) [2; 3; 5; 6; 7; 8]%nat | _ => false end &&
  forallb (fun i => Qeq_bool (V i) 0) [0; 1; 4]%nat.
Lemma rests_ok : forall M V, size M = 9%nat -> rests_at M V = true -> balanced M twist zero upper_held V.
Proof.
  intros M V HS C. unfold rests_at in C. apply andb_prop in C. destruct C as [C D]. destruct (build M V Secant) as [K|] eqn:B; [|discriminate]. exists K. split; [exact B|].
  rewrite HS. rewrite forallb_forall in C, D. split; intros i Hi R0.
  - unfold zero. apply Qeq_bool_iff, D. do 9 (destruct i as [|i]; [first [discriminate R0|cbn; auto 10]|]). lia.
  - apply Qeq_bool_iff, C. do 9 (destruct i as [|i]; [first [discriminate R0|cbn; auto 10]|]). lia.
Qed.
Lemma rests : balanced (base_pile 100) twist zero upper_held turned /\ balanced (base_pile 200) twist zero upper_held turned_more.
Proof. split; apply rests_ok; [reflexivity|vm_compute; reflexivity|reflexivity|vm_compute; reflexivity]. Qed.

(** The two piles differ in the base moment only, which the second offers twice as much of at every rotation.  Each has one state
    of rest, and the moment on the head turns the head of the second pile further. *)
Theorem C148_beyond_refuted : exists M M' z F r i c c', sound_pile M z /\ sound_pile M' z /\ base_only M /\ base_only M' /\ base_curves M /\ base_curves M' /\ held (w_n M) r /\
  w_n M' = w_n M /\ w_mech M' = w_mech M /\ w_L M' = w_L M /\ w_qz M' = w_qz M /\ w_hb M' = w_hb M /\ w_mb M = Some c /\ w_mb M' = Some c' /\
  map fst c' = map fst c /\ map snd c' = map (fun p => 2 * snd p) c /\ single (size M) i F /\
  (exists V, balanced M F zero r V) /\ (exists V', balanced M' F zero r V') /\
  forall V V', balanced M F zero r V -> balanced M' F zero r V' -> Qabs (V i) < Qabs (V' i).
Proof.
  exists (base_pile 100), (base_pile 200), z2, twist, upper_held, 2%nat, (turn_c 100), (turn_c 200).
  destruct rests as [B B'].
  assert (HL : held 2 upper_held) by (split; [exists 0%nat; split; [lia|reflexivity]|exists 0%nat; split; [lia|]; split; [reflexivity|right; exists 1%nat; split; [lia|]; split; [discriminate|reflexivity]]]).
  split; [apply base_pile_sound|]. split; [apply base_pile_sound|]. split; [repeat split|]. split; [repeat split|].
  split; [apply base_pile_curves; discriminate|]. split; [apply base_pile_curves; discriminate|]. split; [exact HL|]. do 9 (split; [reflexivity|]).
  split. { split; [cbn; lia|]. split; [discriminate|]. intros j Hj N. change (size (base_pile 100)) with 9%nat in Hj. do 9 (destruct j as [|j]; [first [contradiction|reflexivity]|]). lia. }
  split; [exists turned; exact B|]. split; [exists turned_more; exact B'|]. intros V V' A A'.
  assert (X : (2 < 9)%nat) by lia.
  assert (BC : base_curves (base_pile 100)) by (apply base_pile_curves; discriminate). assert (BC' : base_curves (base_pile 200)) by (apply base_pile_curves; discriminate).
  assert (BO : base_only (base_pile 100)) by (repeat split). assert (BO' : base_only (base_pile 200)) by (repeat split).
  destruct (C116_base_unique_partial (base_pile 100) z2 twist zero upper_held V turned (base_pile_sound 100) BO BC A B) as [_ U1].
  destruct (C116_base_unique_partial (base_pile 200) z2 twist zero upper_held V' turned_more (base_pile_sound 200) BO' BC' A' B') as [_ U2].
  rewrite (U1 HL 2%nat X), (U2 HL 2%nat X). reflexivity.
Qed.
Print Assumptions C148_beyond_refuted.
