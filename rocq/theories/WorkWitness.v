(** One element of pile in soil: springs that soften, and moment springs that grow with the lateral resistance. *)
From Coq Require Import List Bool Arith ZArith QArith Qabs Lia Lqa.
From Verif Require Import Base LinAlg PileModel BeamModel BeamSpec BeamProofs SolveModel SolveSpec SolveProofs SpringModel SpringSpec SpringProofs SoilProofs SpringWitness EquilProofs WinklerModel ElasticSpec WorkSpec.
Import ListNotations.
Local Open Scope Q_scope.

Definition column (i : nat) : bool := Nat.eqb i 0.
(** the axial displacement of the head is held, the lateral springs hold the rest *)
Definition one_element (mt : option (nat -> nat -> list curve)) : wmodel := {| w_n := 1; w_mech := fun _ => mech0; w_L := fun _ => 1;
  w_py := Some (fun _ _ => py0); w_tz := None; w_mt := mt; w_mtc := fun _ => mt_coefs EulerBernoulli 0 1 1 1; w_hb := Some py0; w_mb := None; w_qz := None |}.

Definition tilted : vec := of_list [0; 1#20; 1#50; 0; 3#100; 1#50].
Definition bent : vec := of_list [0; 0; 0; 0; 3#100; 1#50].
Definition head_fixed (i : nat) : bool := (i <? 3)%nat.
Definition with_moments : wmodel := one_element (Some (fun _ _ => mt0)).
Definition turned : vec := of_list [0; 1#100; 1#100; 0; 1#100; 1#100].

Definition tilting : vec := of_list [0; 34400#63; 47323#189; 0; -19420#63; 14561#63].
Definition bending : vec := of_list [0; -4360#21; -925#7; 0; 29180#63; -2390#21].
Definition turning : vec := of_list [0; 1275#7; 515#7; 0; 125#7; 1195#21].

Definition rests_at (M : wmodel) (F : vec) (r : nat -> bool) (V : vec) : bool :=
  match build M V Secant with
  | Ok K => forallb (fun i => if r i then Qeq_bool (V i) 0 else Qeq_bool (Qred (sum 6 (fun j => if Qeq_bool (V j) 0 then 0 else Qred (K i j) * V j))) (F i)) (seq 0 6)
  | Err _ => false
  end.

Lemma rests_at_balanced : forall mt F r V, rests_at (one_element mt) F r V = true -> balanced (one_element mt) F zero r V.
Proof.
  intros mt F r V H. unfold rests_at in H. destruct (build (one_element mt) V Secant) as [K|] eqn:B; [|discriminate]. rewrite forallb_forall in H.
  exists K. split; [exact B|]. change (size (one_element mt)) with 6%nat. split; intros i Hi R; specialize (H i ltac:(apply in_seq; lia)); cbv beta in H; rewrite R in H; apply Qeq_bool_iff in H; [exact H|].
  rewrite <- H, Qred_correct. unfold mulv. apply sum_ext. intros j Hj. destruct (Qeq_bool (V j) 0) eqn:E; [apply Qeq_bool_iff in E; rewrite E; ring|rewrite Qred_correct; reflexivity].
Qed.

Lemma tilted_rests : balanced (one_element None) tilting zero column tilted.
Proof. apply rests_at_balanced. vm_compute. reflexivity. Qed.
Lemma bent_rests : balanced (one_element None) bending zero head_fixed bent.
Proof. apply rests_at_balanced. vm_compute. reflexivity. Qed.
Lemma turned_rests : balanced with_moments turning zero column turned.
Proof. apply (rests_at_balanced (Some (fun _ _ => mt0))). vm_compute. reflexivity. Qed.

Lemma one_sound : forall mt, mt = None \/ mt = Some (fun _ _ => mt0) -> sound_model (one_element mt) z0.
Proof.
  intros mt C. constructor.
  - intros e He. cbn in He. split; [|reflexivity]. cbn [w_L one_element]. destruct e as [|]; [reflexivity|lia].
  - intros e He. exact mech0_deforms.
  - intros m _ e He kt kb H1 H2. apply mt_eb_psd; auto. lra.
  - intros py m EP EM e j He Hj. cbn in EP, EM. destruct C as [->| ->]; [discriminate|]. injection EP as <-. injection EM as <-.
    intros col q HC HQ. cbn in HC. destruct HC as [<-|[<-|[<-|[]]]]; cbn in HQ; destruct HQ as [<-|[<-|[<-|[]]]]; cbn; lra.
  - right. eexists; reflexivity.
Qed.

Lemma py0_softening : softening py0.
Proof.
  split; [cbn; lia|]. split; [cbn; repeat split; lra|]. split; [split; reflexivity|].
  intros p [<-|[<-|[<-|[]]]]; vm_compute; discriminate.
Qed.

Lemma one_softening : forall place, softening_soil place (one_element None).
Proof.
  intros place. refine (conj _ (conj _ (conj _ (conj _ (conj _ _))))).
  - intros py E e j _ _. cbn in E. injection E as <-. left. exact py0_softening.
  - intros tz E. discriminate.
  - intros py mt _ E. discriminate.
  - intros c E. cbn in E. injection E as <-. left. exact py0_softening.
  - intros c E. discriminate.
  - intros c E. discriminate.
Qed.
