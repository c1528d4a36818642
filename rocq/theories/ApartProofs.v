(** Movement along the pile and movement across it do not meet in the stiffness matrix. *)
From Coq Require Import List Bool Arith ZArith QArith Qabs Lia Lqa Setoid.
From Verif Require Import Base LinAlg PileModel BeamModel BeamProofs SolveModel SolveSpec SolveProofs SpringModel SpringProofs SpringProper WinklerModel ApartSpec.
Import ListNotations.
Local Open Scope Q_scope.

(** ** Elements *)
Ltac six_cases i := destruct i as [|[|[|[|[|[|i]]]]]].
Lemma elem_py_across : forall L a b i j, along i = true \/ along j = true -> elem_py L a b i j == 0.
Proof.
  intros L a b i j H. unfold elem_py, of_rows.
  six_cases i; six_cases j; try (destruct H as [H|H]; discriminate H); cbn; try ring;
    try (destruct i; cbn; ring); try (destruct j; cbn; ring).
Qed.
Lemma elem_tz_along : forall L a b i j, along i = false \/ along j = false -> elem_tz L a b i j == 0.
Proof.
  intros L a b i j H. unfold elem_tz, of_rows.
  six_cases i; six_cases j; try (destruct H as [H|H]; discriminate H); cbn; try ring;
    try (destruct i; cbn; ring); try (destruct j; cbn; ring).
Qed.
Lemma mt_matrix_across : forall c a b i j, along i = true \/ along j = true -> mt_matrix c a b i j == 0.
Proof.
  intros [[[A B] C] D] a b i j H. unfold mt_matrix, of_rows.
  six_cases i; six_cases j; try (destruct H as [H|H]; discriminate H); cbn; try ring;
    try (destruct i; cbn; ring); try (destruct j; cbn; ring).
Qed.
Lemma mech_uncoupled : forall E I A L phi, uncoupled (mech_phi E I A L phi).
Proof.
  intros E I A L phi i j H. unfold mech_phi, of_rows.
  six_cases i; six_cases j; try (exfalso; apply H; reflexivity); cbn; try reflexivity;
    try (destruct i; reflexivity); try (destruct j; reflexivity).
Qed.
Lemma elem_mech_uncoupled : forall ty circ E nu I A d wt L k, elem_mech ty circ E nu I A d wt L = Ok k -> uncoupled k.
Proof.
  intros ty circ E nu I A d wt L k H. unfold elem_mech in H. destruct (shear_kappa ty circ nu d wt) as [kp|e]; cbn [bind] in H; [|discriminate].
  injection H as <-. apply mech_uncoupled.
Qed.

Lemma along_shift : forall e i, (3 * e <= i)%nat -> along (i - 3 * e) = along i.
Proof.
  intros e i H. unfold along. replace i with ((i - 3 * e) + e * 3)%nat at 2 by lia. rewrite Nat.mod_add by lia. reflexivity.
Qed.
Lemma across_along : forall i, across i = negb (along i).
Proof. reflexivity. Qed.

(** ** What a stiffness matrix is made of *)
Definition sel {A : Type} (o : option A) (f : A -> res (list (Q * Q))) (l : list (Q * Q)) : Prop := match o with Some a => f a = Ok l | None => l = [] end.
Definition zero_mat (K : mat) : Prop := forall i j, K i j == 0.

Lemma kpair_nil : forall e, kpair [] e = (0, 0).
Proof. intros e. unfold kpair. destruct e; reflexivity. Qed.
Lemma elem_py_0 : forall L i j, elem_py L 0 0 i j == 0.
Proof. intros. unfold elem_py. cbv zeta. ring. Qed.
Lemma elem_tz_0 : forall L i j, elem_tz L 0 0 i j == 0.
Proof. intros. unfold elem_tz. cbv zeta. ring. Qed.
Lemma mt_matrix_0 : forall c i j, mt_matrix c 0 0 i j == 0.
Proof. intros [[[A B] C] D] i j. unfold mt_matrix. ring. Qed.

Lemma soil_elements_made : forall M u k ks, soil_elements M u k = Ok ks ->
  exists lp lt lm, sel (w_py M) (fun py => py_stiffness M py u k) lp /\ sel (w_tz M) (fun tz => tz_stiffness M tz u k) lt /\
    (match w_mt M with Some mt => exists py, w_py M = Some py /\ mt_stiffness M py mt u k = Ok lm | None => lm = [] end) /\
    forall e i j, ks e i j == w_mech M e i j + elem_py (w_L M e) (fst (kpair lp e)) (snd (kpair lp e)) i j +
      elem_tz (w_L M e) (fst (kpair lt e)) (snd (kpair lt e)) i j + mt_matrix (w_mtc M e) (fst (kpair lm e)) (snd (kpair lm e)) i j.
Proof.
  intros M u k ks H. unfold soil_elements, opt_res in H.
  assert (P : exists lp k1, sel (w_py M) (fun py => py_stiffness M py u k) lp /\
     (match w_py M with None => Ok (w_mech M) | Some py => bind (py_stiffness M py u k) (fun l => Ok (fun e => madd (w_mech M e) (elem_py (w_L M e) (fst (kpair l e)) (snd (kpair l e))))) end) = Ok k1 /\
     forall e i j, k1 e i j == w_mech M e i j + elem_py (w_L M e) (fst (kpair lp e)) (snd (kpair lp e)) i j).
  { destruct (w_py M) as [py|].
    - destruct (py_stiffness M py u k) as [l|er] eqn:E; cbn [bind] in *; [|discriminate H]. exists l. eexists. split; [exact E|]. split; [reflexivity|]. intros. reflexivity.
    - exists [], (w_mech M). split; [reflexivity|]. split; [reflexivity|]. intros. rewrite kpair_nil. cbn [fst snd]. rewrite elem_py_0. ring. }
  destruct P as (lp & k1 & SP & E1 & K1). rewrite E1 in H. cbn [bind] in H.
  assert (T : exists lt k2, sel (w_tz M) (fun tz => tz_stiffness M tz u k) lt /\
     (match w_tz M with None => Ok k1 | Some tz => bind (tz_stiffness M tz u k) (fun l => Ok (fun e => madd (k1 e) (elem_tz (w_L M e) (fst (kpair l e)) (snd (kpair l e))))) end) = Ok k2 /\
     forall e i j, k2 e i j == k1 e i j + elem_tz (w_L M e) (fst (kpair lt e)) (snd (kpair lt e)) i j).
  { destruct (w_tz M) as [tz|].
    - destruct (tz_stiffness M tz u k) as [l|er] eqn:E; cbn [bind] in *; [|discriminate H]. exists l. eexists. split; [exact E|]. split; [reflexivity|]. intros. reflexivity.
    - exists [], k1. split; [reflexivity|]. split; [reflexivity|]. intros. rewrite kpair_nil. cbn [fst snd]. rewrite elem_tz_0. ring. }
  destruct T as (lt & k2 & ST & E2 & K2). rewrite E2 in H. cbn [bind] in H. clear E1 E2.
  exists lp, lt. destruct (w_mt M) as [mt|].
  - destruct (w_py M) as [py|]; [|discriminate H]. destruct (mt_stiffness M py mt u k) as [l|er] eqn:E; cbn [bind] in H; [|discriminate H]. injection H as <-.
    exists l. split; [exact SP|]. split; [exact ST|]. split; [exists py; auto|]. intros e i j. unfold madd. rewrite (K2 e i j), (K1 e i j). reflexivity.
  - injection H as <-. exists []. split; [exact SP|]. split; [exact ST|]. split; [reflexivity|]. intros e i j. rewrite kpair_nil. cbn [fst snd]. rewrite (K2 e i j), (K1 e i j), mt_matrix_0. ring.
Qed.

Definition base_part (M : wmodel) (p : nat) (o : option curve) (f : Q -> curve -> kind -> res Q) (u : vec) (k : kind) (v : Q) : Prop :=
  match o with Some c => f (u (size M - p)%nat) c k = Ok v | None => v = 0 end.
Definition at_diag (M : wmodel) (p : nat) (v : Q) : mat := fun i j => if (Nat.eqb i (size M - p) && Nat.eqb j (size M - p))%bool then v else 0.
Lemma add_base_made : forall M p o f u k K K', add_base M p o f u k K = Ok K' -> exists v, base_part M p o f u k v /\ forall i j, K' i j == K i j + at_diag M p v i j.
Proof.
  intros M p o f u k K K' H. unfold add_base, opt_res in H. unfold base_part, at_diag. destruct o as [c|].
  - destruct (f _ c k) as [v|e]; cbn [bind] in H; [|discriminate H]. injection H as <-. exists v. split; [reflexivity|]. intros i j. unfold add_diag. destruct (_ && _)%bool; ring.
  - injection H as <-. exists 0. split; [reflexivity|]. intros i j. destruct (_ && _)%bool; ring.
Qed.

Lemma build_made : forall M u k K, build M u k = Ok K -> exists ks vh vm vq, soil_elements M u k = Ok ks /\
  base_part M 2 (w_hb M) base_spring u k vh /\ base_part M 1 (w_mb M) base_spring u k vm /\ base_part M 3 (w_qz M) base_axial_spring u k vq /\
  forall i j, K i j == jit_build (w_n M) ks i j + at_diag M 2 vh i j + at_diag M 1 vm i j + at_diag M 3 vq i j.
Proof.
  intros M u k K H. unfold build in H. destruct (soil_elements M u k) as [ks|e]; cbn [bind] in H; [|discriminate H].
  destruct (add_base M 2 (w_hb M) base_spring u k (jit_build (w_n M) ks)) as [K1|e] eqn:E1; cbn [bind] in H; [|discriminate H].
  destruct (add_base M 1 (w_mb M) base_spring u k K1) as [K2|e] eqn:E2; cbn [bind] in H; [|discriminate H].
  destruct (add_base_made _ _ _ _ _ _ _ _ E1) as (vh & B1 & M1). destruct (add_base_made _ _ _ _ _ _ _ _ E2) as (vm & B2 & M2). destruct (add_base_made _ _ _ _ _ _ _ _ H) as (vq & B3 & M3).
  exists ks, vh, vm, vq. split; [reflexivity|]. split; [exact B1|]. split; [exact B2|]. split; [exact B3|]. intros i j. rewrite (M3 i j), (M2 i j), (M1 i j). reflexivity.
Qed.

Lemma size_classes : forall M, along (size M - 3) = true /\ along (size M - 2) = false /\ along (size M - 1) = false.
Proof.
  intros M. unfold size, along. replace (3 * w_n M + 3 - 3)%nat with (0 + w_n M * 3)%nat by lia. replace (3 * w_n M + 3 - 2)%nat with (1 + w_n M * 3)%nat by lia.
  replace (3 * w_n M + 3 - 1)%nat with (2 + w_n M * 3)%nat by lia. rewrite !Nat.mod_add by lia. repeat split.
Qed.

(** the tip's springs lie on the diagonal *)
Lemma at_diag_off : forall M p v i j, i <> j -> at_diag M p v i j = 0.
Proof. intros M p v i j H. unfold at_diag. destruct (Nat.eqb_spec i (size M - p)); destruct (Nat.eqb_spec j (size M - p)); cbn; auto. exfalso; apply H; congruence. Qed.
Lemma at_diag_class : forall M p v i j c, along (size M - p) = c -> along i <> c -> at_diag M p v i j = 0.
Proof. intros M p v i j c H H'. unfold at_diag. destruct (Nat.eqb_spec i (size M - p)) as [->|]; cbn; auto. congruence. Qed.

Lemma build_uncoupled : forall M u k K, elements_apart M -> build M u k = Ok K -> uncoupled K.
Proof.
  intros M u k K EA H i j D. destruct (build_made M u k K H) as (ks & vh & vm & vq & ES & _ & _ & _ & EK). rewrite (EK i j).
  assert (N : i <> j) by (intros ->; apply D; reflexivity). rewrite !at_diag_off by exact N.
  assert (Z : jit_build (w_n M) ks i j == 0).
  { unfold jit_build. apply sum_zero. intros e He. unfold block. destruct (_ && _)%bool eqn:B; [|reflexivity].
    apply andb_true_iff in B. destruct B as [B1 B2]. apply andb_true_iff in B1. apply andb_true_iff in B2. destruct B1 as [B1 _]. destruct B2 as [B2 _]. apply Nat.leb_le in B1. apply Nat.leb_le in B2.
    destruct (soil_elements_made M u k ks ES) as (lp & lt & lm & _ & _ & _ & KS). rewrite (KS e).
    rewrite <- (along_shift e i B1), <- (along_shift e j B2) in D. set (a := (i - 3 * e)%nat) in *. set (b := (j - 3 * e)%nat) in *.
    assert (T : along a = true \/ along b = true) by (destruct (along a), (along b); auto; exfalso; apply D; reflexivity).
    assert (U : along a = false \/ along b = false) by (destruct (along a), (along b); auto; exfalso; apply D; reflexivity).
    rewrite (EA e He a b D), (elem_py_across _ _ _ _ _ T), (elem_tz_along _ _ _ _ _ U), (mt_matrix_across _ _ _ _ _ T). reflexivity. }
  rewrite Z. reflexivity.
Qed.

(** ** Springs see the displacements of their own direction only *)
Lemma node_along : forall n e j c, (e < n)%nat -> (j < 2)%nat -> (c < 3)%nat -> (3 * spring_node n e j + c < 3 * n + 3)%nat /\ along (3 * spring_node n e j + c) = Nat.eqb c 0.
Proof.
  intros n e j c He Hj Hc. split; [unfold spring_node; destruct (_ && _)%bool; lia|]. unfold along. replace (3 * spring_node n e j + c)%nat with (c + spring_node n e j * 3)%nat by lia.
  rewrite Nat.mod_add by lia. rewrite Nat.mod_small by lia. reflexivity.
Qed.
Lemma disp_agree : forall n D u u' c e j, agree (3 * n + 3) D u u' -> (e < n)%nat -> (j < 2)%nat -> (c < 3)%nat -> D (3 * spring_node n e j + c)%nat = true ->
  spring_disp n u c e j == spring_disp n u' c e j.
Proof. intros n D u u' c e j H He Hj Hc HD. rewrite !spring_disp_node by auto. apply H; [apply node_along; auto|exact HD]. Qed.

Section Across.
Variables (M M' : wmodel) (u u' : vec) (k : kind).
Hypothesis AL : alike_across M M'.
Hypothesis AG : agree (size M) across u u'.

Lemma across_disp : forall c e j, (e < w_n M)%nat -> (j < 2)%nat -> (c < 3)%nat -> c <> 0%nat -> spring_disp (w_n M) u c e j == spring_disp (w_n M) u' c e j.
Proof.
  intros c e j He Hj Hc C0. apply (disp_agree _ across); auto. rewrite across_along. rewrite (proj2 (node_along (w_n M) e j c He Hj Hc)). destruct c; [congruence|reflexivity].
Qed.

Lemma py_alike : forall py l l', py_stiffness M py u k = Ok l -> py_stiffness M' py u' k = Ok l' -> Forall2 qp l l'.
Proof.
  intros py l l' H H'. destruct AL as (EN & _). unfold py_stiffness in *. rewrite <- EN in H'.
  assert (R : req (Forall2 qp) (Ok l) (Ok l')); [|exact R]. rewrite <- H, <- H'. apply collect_comp. intros e He. apply both_comp. intros j Hj. apply py_spring_comp, across_disp; auto.
Qed.
Lemma mt_alike : forall py mt l l', mt_stiffness M py mt u k = Ok l -> mt_stiffness M' py mt u' k = Ok l' -> Forall2 qp l l'.
Proof.
  intros py mt l l' H H'. destruct AL as (EN & _). unfold mt_stiffness in *. rewrite <- EN in H'.
  assert (R : req (Forall2 qp) (Ok l) (Ok l')); [|exact R]. rewrite <- H, <- H'. apply collect_comp. intros e He. apply both_comp. intros j Hj.
  eapply req_bind; [apply py_spring_comp, across_disp; auto|]. intros x y E. apply mt_spring_comp; [apply across_disp; auto|]. apply Qmult_comp; [exact E|apply across_disp; auto].
Qed.

Lemma build_across : forall K K', build M u k = Ok K -> build M' u' k = Ok K' -> same_within across K K'.
Proof.
  intros K K' H H' i j Di Dj. destruct (build_made M u k K H) as (ks & vh & vm & vq & ES & BH & BM & BQ & EK). destruct (build_made M' u' k K' H') as (ks' & vh' & vm' & vq' & ES' & BH' & BM' & BQ' & EK').
  destruct AL as (EN & EL & EP & ET & EC & EH & EM & EA & EA' & EW).
  assert (SZ : size M' = size M) by (unfold size; congruence).
  rewrite (EK i j), (EK' i j). rewrite across_along in Di, Dj. apply negb_true_iff in Di. apply negb_true_iff in Dj.
  destruct (size_classes M) as (C3 & C2 & C1). destruct (size_classes M') as (C3' & C2' & C1').
  rewrite (at_diag_class M 3 vq i j true C3) by congruence. rewrite (at_diag_class M' 3 vq' i j true C3') by congruence.
  assert (B2 : vh == vh').
  { unfold base_part in BH, BH'. rewrite <- EH in BH'. destruct (w_hb M) as [c|]; [|subst; reflexivity]. rewrite SZ in BH'.
    assert (R : req Qeq (Ok vh) (Ok vh')); [|exact R]. rewrite <- BH, <- BH'. apply base_spring_comp. apply AG; [unfold size; lia|]. rewrite across_along, C2. reflexivity. }
  assert (B1 : vm == vm').
  { unfold base_part in BM, BM'. rewrite <- EM in BM'. destruct (w_mb M) as [c|]; [|subst; reflexivity]. rewrite SZ in BM'.
    assert (R : req Qeq (Ok vm) (Ok vm')); [|exact R]. rewrite <- BM, <- BM'. apply base_spring_comp. apply AG; [unfold size; lia|]. rewrite across_along, C1. reflexivity. }
  assert (A2 : at_diag M 2 vh i j == at_diag M' 2 vh' i j) by (unfold at_diag; rewrite SZ; destruct (_ && _)%bool; [exact B2|reflexivity]).
  assert (A1 : at_diag M 1 vm i j == at_diag M' 1 vm' i j) by (unfold at_diag; rewrite SZ; destruct (_ && _)%bool; [exact B1|reflexivity]).
  assert (Z : jit_build (w_n M) ks i j == jit_build (w_n M') ks' i j); [|rewrite Z, A2, A1; reflexivity].
  rewrite <- EN. unfold jit_build. apply sum_ext. intros e He. unfold block. destruct (_ && _)%bool eqn:B; [|reflexivity].
  apply andb_true_iff in B. destruct B as [X1 X2]. apply andb_true_iff in X1. apply andb_true_iff in X2. destruct X1 as [X1 _]. destruct X2 as [X2 _]. apply Nat.leb_le in X1. apply Nat.leb_le in X2.
  destruct (soil_elements_made M u k ks ES) as (lp & lt & lm & SP & _ & SM & KS). destruct (soil_elements_made M' u' k ks' ES') as (lp' & lt' & lm' & SP' & _ & SM' & KS').
  rewrite (KS e), (KS' e). rewrite <- (along_shift e i X1) in Di. rewrite <- (along_shift e j X2) in Dj. set (a := (i - 3 * e)%nat) in *. set (b := (j - 3 * e)%nat) in *.
  rewrite (elem_tz_along (w_L M e) _ _ a b (or_introl Di)), (elem_tz_along (w_L M' e) _ _ a b (or_introl Di)).
  assert (W : w_mech M e a b == w_mech M' e a b) by (apply EW; [exact He| |]; rewrite across_along; [rewrite Di|rewrite Dj]; reflexivity). rewrite W.
  assert (LP : Forall2 qp lp lp').
  { unfold sel in SP, SP'. rewrite <- EP in SP'. destruct (w_py M) as [py|]; [exact (py_alike py _ _ SP SP')|subst; constructor]. }
  assert (LM : Forall2 qp lm lm').
  { rewrite <- ET in SM'. destruct (w_mt M) as [mt|]; [|subst; constructor]. destruct SM as (py & Y1 & Y2). destruct SM' as (py' & Y1' & Y2'). rewrite <- EP, Y1 in Y1'. injection Y1' as <-. exact (mt_alike py mt _ _ Y2 Y2'). }
  destruct (kpair_comp lp lp' e LP) as [Q1 Q2]. destruct (kpair_comp lm lm' e LM) as [Q3 Q4].
  rewrite <- EL, <- EC. rewrite (elem_py_comp (w_L M e) _ _ _ _ Q1 Q2 a b), (mt_matrix_comp (w_mtc M e) _ _ _ _ Q3 Q4 a b). reflexivity.
Qed.
End Across.

Section Along.
Variables (M M' : wmodel) (u u' : vec) (k : kind).
Hypothesis AL : alike_along M M'.
Hypothesis AG : agree (size M) along u u'.

Lemma tz_alike : forall tz l l', tz_stiffness M tz u k = Ok l -> tz_stiffness M' tz u' k = Ok l' -> Forall2 qp l l'.
Proof.
  intros tz l l' H H'. destruct AL as (EN & _). unfold tz_stiffness in *. rewrite <- EN in H'.
  assert (R : req (Forall2 qp) (Ok l) (Ok l')); [|exact R]. rewrite <- H, <- H'. apply collect_comp. intros e He. apply both_comp. intros j Hj. apply tz_spring_comp.
  apply (disp_agree _ along); auto. rewrite (proj2 (node_along (w_n M) e j 0 He Hj ltac:(lia))). reflexivity.
Qed.

Lemma build_along : forall K K', build M u k = Ok K -> build M' u' k = Ok K' -> same_within along K K'.
Proof.
  intros K K' H H' i j Di Dj. destruct (build_made M u k K H) as (ks & vh & vm & vq & ES & BH & BM & BQ & EK). destruct (build_made M' u' k K' H') as (ks' & vh' & vm' & vq' & ES' & BH' & BM' & BQ' & EK').
  destruct AL as (EN & EL & ET & EQ & EA & EA' & EW).
  assert (SZ : size M' = size M) by (unfold size; congruence).
  rewrite (EK i j), (EK' i j).
  destruct (size_classes M) as (C3 & C2 & C1). destruct (size_classes M') as (C3' & C2' & C1').
  rewrite (at_diag_class M 2 vh i j false C2), (at_diag_class M 1 vm i j false C1) by congruence. rewrite (at_diag_class M' 2 vh' i j false C2'), (at_diag_class M' 1 vm' i j false C1') by congruence.
  assert (B3 : vq == vq').
  { unfold base_part in BQ, BQ'. rewrite <- EQ in BQ'. destruct (w_qz M) as [c|]; [|subst; reflexivity]. rewrite SZ in BQ'.
    assert (R : req Qeq (Ok vq) (Ok vq')); [|exact R]. rewrite <- BQ, <- BQ'. apply base_axial_spring_comp. apply AG; [unfold size; lia|exact C3]. }
  assert (A3 : at_diag M 3 vq i j == at_diag M' 3 vq' i j) by (unfold at_diag; rewrite SZ; destruct (_ && _)%bool; [exact B3|reflexivity]).
  assert (Z : jit_build (w_n M) ks i j == jit_build (w_n M') ks' i j); [|rewrite Z, A3; reflexivity].
  rewrite <- EN. unfold jit_build. apply sum_ext. intros e He. unfold block. destruct (_ && _)%bool eqn:B; [|reflexivity].
  apply andb_true_iff in B. destruct B as [X1 X2]. apply andb_true_iff in X1. apply andb_true_iff in X2. destruct X1 as [X1 _]. destruct X2 as [X2 _]. apply Nat.leb_le in X1. apply Nat.leb_le in X2.
  destruct (soil_elements_made M u k ks ES) as (lp & lt & lm & _ & ST & _ & KS). destruct (soil_elements_made M' u' k ks' ES') as (lp' & lt' & lm' & _ & ST' & _ & KS').
  rewrite (KS e), (KS' e). rewrite <- (along_shift e i X1) in Di. rewrite <- (along_shift e j X2) in Dj. set (a := (i - 3 * e)%nat) in *. set (b := (j - 3 * e)%nat) in *.
  rewrite (elem_py_across (w_L M e) _ _ a b (or_introl Di)), (elem_py_across (w_L M' e) _ _ a b (or_introl Di)), (mt_matrix_across (w_mtc M e) _ _ a b (or_introl Di)), (mt_matrix_across (w_mtc M' e) _ _ a b (or_introl Di)).
  rewrite (EW e He a b Di Dj).
  assert (LT : Forall2 qp lt lt').
  { unfold sel in ST, ST'. rewrite <- ET in ST'. destruct (w_tz M) as [tz|]; [exact (tz_alike tz _ _ ST ST')|subst; constructor]. }
  destruct (kpair_comp lt lt' e LT) as [Q1 Q2]. rewrite <- EL. rewrite (elem_tz_comp (w_L M e) _ _ _ _ Q1 Q2 a b). reflexivity.
Qed.
End Along.

(** ** The linear system *)
Section Solve.
Variables (n : nat) (D : nat -> bool).
(** [D] is one of the two directions *)
Hypothesis DC : forall i j, D i <> D j -> along i <> along j.
Variables (solve solve' : solver) (r r' : nat -> bool).
Hypothesis SO : solver_ok solve.
Hypothesis SO' : solver_ok solve'.
Hypothesis RR : held_alike n D r r'.

Definition alike (K K' : mat) : Prop := uncoupled K /\ uncoupled K' /\ same_within D K K'.

Lemma mulv_alike : forall K K' v v', alike K K' -> agree n D v v' -> agree n D (mulv n K v) (mulv n K' v').
Proof using DC.
  intros K K' v v' (U & U' & SW) AG i Hi Di. unfold mulv. apply sum_ext. intros j Hj. destruct (D j) eqn:Dj.
  - rewrite (SW i j Di Dj), (AG j Hj Dj). reflexivity.
  - assert (N : along i <> along j) by (apply DC; congruence). rewrite (U i j N), (U' i j N). ring.
Qed.

Lemma solve_alike : forall K K' F F' U U' u R u' R', alike K K' -> agree n D F F' -> agree n D U U' ->
  solve_equations solve n K F U r = Some (u, R) -> solve_equations solve' n K' F' U' r' = Some (u', R') -> agree n D u u' /\ agree n D R R'.
Proof using DC SO SO' RR.
  intros K K' F F' U U' u R u' R' AK AF AU E E'.
  assert (ST : stable n K r) by (apply (solve_equations_succeeds solve n K F U r SO); eauto).
  destruct (solve_equations_sound _ _ _ _ _ _ _ _ SO E) as (A1 & A2 & A3). destruct (solve_equations_sound _ _ _ _ _ _ _ _ SO' E') as (C1 & C2 & C3).
  set (x := fun i => if D i then u i - u' i else 0).
  assert (UC : uncoupled K) by apply AK.
  assert (KX : forall i, (i < n)%nat -> D i = true -> mulv n K x i == mulv n K u i - mulv n K' u' i).
  { intros i Hi Di. destruct AK as (_ & U2 & SW). unfold mulv. assert (SM : sum n (fun j => K i j * u j) - sum n (fun j => K' i j * u' j) == sum n (fun j => K i j * u j + - (1) * (K' i j * u' j))) by (rewrite sum_plus, sum_scale; ring).
    rewrite SM. apply sum_ext. intros j Hj. unfold x. destruct (D j) eqn:Dj; [rewrite (SW i j Di Dj); ring|]. assert (N : along i <> along j) by (apply DC; congruence). rewrite (UC i j N), (U2 i j N). ring. }
  assert (KZ : forall i, (i < n)%nat -> D i = false -> mulv n K x i == 0).
  { intros i Hi Di. unfold mulv. apply sum_zero. intros j Hj. unfold x. destruct (D j) eqn:Dj; [|ring]. rewrite (UC i j) by (apply DC; congruence). ring. }
  assert (XZ : forall i, (i < n)%nat -> x i == 0).
  { apply ST.
    - intros i Hi Ri. unfold x. destruct (D i) eqn:Di; [|reflexivity]. rewrite (A3 i Hi Ri). rewrite (RR i Hi Di) in Ri. rewrite (C3 i Hi Ri), (AU i Hi Di). ring.
    - intros i Hi Ri. destruct (D i) eqn:Di; [|apply KZ; auto]. rewrite (KX i Hi Di), (A1 i Hi), (C1 i Hi), (A2 i Hi Ri), (AF i Hi Di). rewrite (RR i Hi Di) in Ri. rewrite (C2 i Hi Ri). ring. }
  assert (AUU : agree n D u u') by (intros i Hi Di; specialize (XZ i Hi); unfold x in XZ; rewrite Di in XZ; lra).
  split; [exact AUU|]. intros i Hi Di. pose proof (mulv_alike K K' u u' AK AUU i Hi Di) as MM. rewrite (A1 i Hi), (C1 i Hi), (AF i Hi Di) in MM. lra.
Qed.

(** ** The iteration *)
Variables (bld bld' : vec -> kind -> res mat) (F F' U0 U0' : vec).
Hypothesis HB : forall d d' k K K', agree n D d d' -> bld d k = Ok K -> bld' d' k = Ok K' -> alike K K'.
Hypothesis HF : agree n D F F'.
Hypothesis HU : agree n D U0 U0'.

(** stopped because what is out of balance fell below the tolerance *)
Definition settled (o : outcome) : Prop := exists e t, o_err o = Some e /\ o_tol o = Some t /\ e < t /\ (1 < o_iter o)%nat.

Definition together (o o' : outcome) : Prop :=
  step_by_step n D (rev (o_hist o)) (rev (o_hist o')) /\
  (o_iter o = o_iter o' -> settled o -> settled o' -> exists d d' q q', o_d o = Some d /\ o_d o' = Some d' /\ o_Q o = Some q /\ o_Q o' = Some q' /\ agree n D d d' /\ agree n D q q').

Definition in_step (h h' : list vec) : Prop := Forall2 (agree n D) h h'.

Lemma step_prefix : forall h h' a b, in_step h h' -> (forall x, In x a -> False) \/ (forall x, In x b -> False) -> step_by_step n D (h ++ a) (h' ++ b).
Proof using.
  clear. intros h h' a b H E k v v' N N'. revert k N N'. induction H as [|x y t t' Hxy Ht IH]; intros k N N'.
  - cbn in N, N'. destruct E as [E|E]; exfalso; [apply (E v)|apply (E v')]; eapply nth_error_In; eassumption.
  - destruct k as [|k]; cbn in N, N'; [injection N as <-; injection N' as <-; exact Hxy|]. eapply IH; eassumption.
Qed.
Lemma in_step_rev : forall h h', in_step h h' -> in_step (rev h) (rev h').
Proof using. clear. intros h h' H. unfold in_step. induction H; cbn; [constructor|]. apply Forall2_app; [assumption|constructor; [assumption|constructor]]. Qed.

(** the loop only adds passes, and counts them *)
Lemma loop_extends : forall sv b f u0 s fuel iter d U K Rg last o, loop sv n b f u0 s fuel iter d U K Rg last = Ok o -> exists l, o_hist o = l ++ o_hist last.
Proof using.
  clear. intros sv b f u0 s. induction fuel as [|fuel IH]; intros iter d U K Rg last o H; cbn [loop] in H; [injection H as <-; exists []; reflexivity|].
  destruct (solve_equations sv n K Rg U s) as [[u R]|]; [|injection H as <-; exists []; reflexivity]. cbv zeta in H.
  destruct (b _ Secant) as [Ks|e]; cbn [bind] in H; [|discriminate H]. destruct (_ && _)%bool.
  - destruct (solve_equations sv n Ks f u0 s) as [[uf Rf]|]; [|discriminate H]. injection H as <-. eexists [_]. reflexivity.
  - destruct (Nat.eqb (S iter) 100); [injection H as <-; eexists [_]; reflexivity|]. destruct (b _ Tangent) as [Kt|e]; cbn [bind] in H; [|discriminate H].
    destruct (IH _ _ _ _ _ _ _ H) as [l E]. cbn [o_hist] in E. eexists (l ++ [_]). rewrite E, <- app_assoc. reflexivity.
Qed.

Lemma loop_iter : forall sv b f u0 s fuel iter d U K Rg last o, loop sv n b f u0 s fuel iter d U K Rg last = Ok o -> (iter < 100)%nat -> (iter = o_iter last)%nat ->
  o = last \/ o_d o = None \/ (iter < o_iter o)%nat.
Proof using.
  clear. intros sv b f u0 s. induction fuel as [|fuel IH]; intros iter d U K Rg last o H I1 I2; cbn [loop] in H; [injection H as <-; auto|].
  destruct (solve_equations sv n K Rg U s) as [[u R]|]; [|injection H as <-; right; left; reflexivity]. cbv zeta in H.
  destruct (b _ Secant) as [Ks|e]; cbn [bind] in H; [|discriminate H]. destruct (_ && _)%bool.
  - destruct (solve_equations sv n Ks f u0 s) as [[uf Rf]|]; [|discriminate H]. injection H as <-. right. right. cbn. lia.
  - destruct (Nat.eqb_spec (S iter) 100) as [EH|N]; [injection H as <-; right; left; reflexivity|]. destruct (b _ Tangent) as [Kt|e]; cbn [bind] in H; [|discriminate H].
    destruct (IH _ _ _ _ _ _ _ H ltac:(lia) eq_refl) as [->|[X|X]]; [right; right; cbn; lia|auto|right; right; lia].
Qed.

Definition unsettled (o : outcome) : Prop := settled o -> False.

(** an outcome reached after a pass that did not settle: settled only in a later pass *)
Lemma settled_later : forall sv b f u0 s fuel iter d U K Rg last o, loop sv n b f u0 s fuel iter d U K Rg last = Ok o -> (iter < 100)%nat -> iter = o_iter last -> o_tol last = None \/ unsettled last ->
  settled o -> (iter < o_iter o)%nat.
Proof using.
  clear. intros sv b f u0 s. induction fuel as [|fuel IH]; intros iter d U K Rg last o H I1 I2 NL SE; cbn [loop] in H.
  - injection H as <-. exfalso. destruct NL as [NL|NL]; [destruct SE as (e & t & _ & X & _); congruence|exact (NL SE)].
  - destruct (solve_equations sv n K Rg U s) as [[u R]|]; [|injection H as <-; destruct SE as (e & t & _ & X & _); discriminate X]. cbv zeta in H.
    destruct (b _ Secant) as [Ks|e]; cbn [bind] in H; [|discriminate H]. destruct (Qltb _ _ && _)%bool eqn:ST.
    + destruct (solve_equations sv n Ks f u0 s) as [[uf Rf]|]; [|discriminate H]. injection H as <-. cbn. lia.
    + destruct (Nat.eqb_spec (S iter) 100) as [EH|N]; [injection H as <-; destruct SE as (e & t & X & _); discriminate X|]. destruct (b _ Tangent) as [Kt|e]; cbn [bind] in H; [|discriminate H].
      assert (X : (S iter < o_iter o)%nat); [|lia]. eapply (IH _ _ _ _ _ _ _ H ltac:(lia) eq_refl); [|exact SE]. right. intros (e & t & E1 & E2 & E3 & E4). cbn in E1, E2, E4. injection E1 as <-. injection E2 as <-.
      apply andb_false_iff in ST. destruct ST as [ST|ST]; [apply Qltb_false in ST; lra|apply Nat.ltb_ge in ST; lia].
Qed.

Lemma loop_together : forall fuel iter d d' U U' K K' Rg Rg' last last' o o', (iter < 100)%nat -> iter = o_iter last -> iter = o_iter last' -> o_tol last = None \/ unsettled last -> o_tol last' = None \/ unsettled last' ->
  agree n D d d' -> agree n D U U' -> alike K K' -> agree n D Rg Rg' -> in_step (o_hist last) (o_hist last') ->
  loop solve n bld F U0 r fuel iter d U K Rg last = Ok o -> loop solve' n bld' F' U0' r' fuel iter d' U' K' Rg' last' = Ok o' -> together o o'.
Proof using DC SO SO' RR HB HF HU.
  induction fuel as [|fuel IH]; intros iter d d' U U' K K' Rg Rg' last last' o o' I1 I2 I2' NL NL' HD HUU HK HR HH H H'.
  - cbn [loop] in H, H'. injection H as <-. injection H' as <-. split.
    + rewrite <- (app_nil_r (rev (o_hist last))), <- (app_nil_r (rev (o_hist last'))). apply step_prefix; [apply in_step_rev; exact HH|left; intros x []].
    + intros _ SE _. exfalso. destruct NL as [NL|NL]; [destruct SE as (e & t & _ & X & _); congruence|exact (NL SE)].
  - pose proof (loop_extends _ _ _ _ _ _ _ _ _ _ _ _ _ H) as EX. pose proof (loop_extends _ _ _ _ _ _ _ _ _ _ _ _ _ H') as EX'.
    pose proof (settled_later _ _ _ _ _ _ _ _ _ _ _ _ _ H' I1 I2' NL') as LATER'.
    cbn [loop] in H, H'.
    destruct (solve_equations solve n K Rg U r) as [[u R]|] eqn:SE.
    2:{ injection H as <-. cbn [o_hist]. split.
        - cbn [o_hist]. destruct EX' as [l ->]. rewrite rev_app_distr. rewrite <- (app_nil_r (rev (o_hist last))). apply step_prefix; [apply in_step_rev; exact HH|left; intros x []].
        - intros _ (e & t & _ & X & _). discriminate X. }
    destruct (solve_equations solve' n K' Rg' U' r') as [[u' R']|] eqn:SE'.
    2:{ injection H' as <-. split.
        - cbn [o_hist]. destruct EX as [l ->]. rewrite rev_app_distr. rewrite <- (app_nil_r (rev (o_hist last'))). apply step_prefix; [apply in_step_rev; exact HH|right; intros x []].
        - intros _ _ (e & t & _ & X & _). discriminate X. }
    destruct (solve_alike K K' Rg Rg' U U' u R u' R' HK HR HUU SE SE') as [TU TR]. cbv zeta in H, H'.
    set (d1 := fun i => d i + u i) in *. set (d1' := fun i => d' i + u' i) in *.
    assert (HD1 : agree n D d1 d1') by (intros i Hi Di; unfold d1, d1'; rewrite (HD i Hi Di), (TU i Hi Di); reflexivity).
    destruct (bld d1 Secant) as [Ks|es] eqn:ES; cbn [bind] in H; [|discriminate H]. destruct (bld' d1' Secant) as [Ks'|es'] eqn:ES'; cbn [bind] in H'; [|discriminate H'].
    pose proof (HB d1 d1' Secant Ks Ks' HD1 ES ES') as BS.
    set (Rn := fun i => F i - R i + - mulv n Ks d1 i) in *. set (Rn' := fun i => F' i - R' i + - mulv n Ks' d1' i) in *.
    assert (HRN : agree n D Rn Rn') by (intros i Hi Di; unfold Rn, Rn'; rewrite (HF i Hi Di), (TR i Hi Di), (mulv_alike Ks Ks' d1 d1' BS HD1 i Hi Di); reflexivity).
    assert (HH1 : in_step (d1 :: o_hist last) (d1' :: o_hist last')) by (constructor; [exact HD1|exact HH]).
    assert (ONE : forall l l', in_step l l' -> forall m, step_by_step n D (rev l) (rev (m ++ l'))) by (intros l l' X m; rewrite rev_app_distr; rewrite <- (app_nil_r (rev l)); apply step_prefix; [apply in_step_rev; exact X|left; intros x []]).
    assert (TWO : forall l l', in_step l l' -> forall m, step_by_step n D (rev (m ++ l)) (rev l')) by (intros l l' X m; rewrite rev_app_distr; rewrite <- (app_nil_r (rev l')); apply step_prefix; [apply in_step_rev; exact X|right; intros x []]).
    destruct (Qltb (free_norm2 n r Rn) (tol2 n F R) && (1 <? S iter)%nat)%bool eqn:ST.
    + destruct (solve_equations solve n Ks F U0 r) as [[uf Rf]|] eqn:SF; [|discriminate H]. injection H as <-.
      destruct (Qltb (free_norm2 n r' Rn') (tol2 n F' R') && (1 <? S iter)%nat)%bool eqn:ST'.
      * destruct (solve_equations solve' n Ks' F' U0' r') as [[uf' Rf']|] eqn:SF'; [|discriminate H']. injection H' as <-. split; [exact (ONE _ _ HH1 [])|].
        intros _ _ _. exists d1, d1', Rf, Rf'. cbn [o_d o_Q]. repeat (split; [reflexivity|]). split; [exact HD1|]. exact (proj2 (solve_alike Ks Ks' F F' U0 U0' uf Rf uf' Rf' BS HF HU SF SF')).
      * destruct (Nat.eqb_spec (S iter) 100) as [EH|NE].
        -- injection H' as <-. split; [exact (ONE _ _ HH1 [])|]. intros _ _ (e & t & X & _). discriminate X.
        -- destruct (bld' d1' Tangent) as [Kt'|et'] eqn:ET'; cbn [bind] in H'; [|discriminate H']. split.
           ++ destruct (loop_extends _ _ _ _ _ _ _ _ _ _ _ _ _ H') as [l E]. cbn [o_hist] in E |- *. rewrite E. exact (ONE _ _ HH1 l).
           ++ cbn [o_iter]. intros EI _ SE2. exfalso.
              assert (X : (S iter < o_iter o')%nat); [|lia]. eapply (settled_later _ _ _ _ _ _ _ _ _ _ _ _ _ H' ltac:(lia) eq_refl); [|exact SE2]. right. intros (e & t & E1 & E2 & E3 & E4). cbn in E1, E2, E4. injection E1 as <-. injection E2 as <-.
              apply andb_false_iff in ST'. destruct ST' as [Q1|Q1]; [apply Qltb_false in Q1; lra|apply Nat.ltb_ge in Q1; lia].
    + destruct (Nat.eqb_spec (S iter) 100) as [E100|NE].
      * injection H as <-. split.
        -- cbn [o_hist]. destruct (Qltb (free_norm2 n r' Rn') (tol2 n F' R') && (1 <? S iter)%nat)%bool.
           ++ destruct (solve_equations solve' n Ks' F' U0' r') as [[uf' Rf']|]; [|discriminate H']. injection H' as <-. exact (ONE _ _ HH1 []).
           ++ injection H' as <-. exact (ONE _ _ HH1 []).
        -- intros _ (e & t & X & _). discriminate X.
      * destruct (bld d1 Tangent) as [Kt|et] eqn:ET; cbn [bind] in H; [|discriminate H].
        assert (UN : forall q, unsettled {| o_d := Some d1; o_Q := q; o_iter := S iter; o_err := Some (free_norm2 n r Rn); o_tol := Some (tol2 n F R); o_hist := d1 :: o_hist last |}).
        { intros q (e & t & E1 & E2 & E3 & E4). cbn in E1, E2, E4. injection E1 as <-. injection E2 as <-. apply andb_false_iff in ST. destruct ST as [Q1|Q1]; [apply Qltb_false in Q1; lra|apply Nat.ltb_ge in Q1; lia]. }
        destruct (Qltb (free_norm2 n r' Rn') (tol2 n F' R') && (1 <? S iter)%nat)%bool eqn:ST'.
        -- destruct (solve_equations solve' n Ks' F' U0' r') as [[uf' Rf']|]; [|discriminate H']. injection H' as <-. split.
           ++ destruct (loop_extends _ _ _ _ _ _ _ _ _ _ _ _ _ H) as [l E]. cbn [o_hist] in E |- *. rewrite E. exact (TWO _ _ HH1 l).
           ++ cbn [o_iter]. intros EI SE2 _. exfalso. assert (X : (S iter < o_iter o)%nat); [|lia]. eapply (settled_later _ _ _ _ _ _ _ _ _ _ _ _ _ H ltac:(lia) eq_refl); [|exact SE2]. right. apply UN.
        -- destruct (bld' d1' Tangent) as [Kt'|et'] eqn:ET'; cbn [bind] in H'; [|discriminate H'].
           assert (I3 : (S iter < 100)%nat) by lia.
           refine (IH (S iter) d1 d1' _ _ _ _ _ _ _ _ o o' I3 _ _ _ _ HD1 _ (HB d1 d1' Tangent Kt Kt' HD1 ET ET') HRN _ H H'); [reflexivity|reflexivity|right; apply UN|right| |].
           ++ intros (e & t & E1 & E2 & E3 & E4). cbn in E1, E2, E4. injection E1 as <-. injection E2 as <-. apply andb_false_iff in ST'. destruct ST' as [Q1|Q1]; [apply Qltb_false in Q1; lra|apply Nat.ltb_ge in Q1; lia].
           ++ intros i Hi Di. reflexivity.
           ++ exact HH1.
Qed.

Lemma winkler_together : forall max_iter o o', winkler solve n bld F U0 r max_iter = Ok o -> winkler solve' n bld' F' U0' r' max_iter = Ok o' -> together o o'.
Proof using DC SO SO' RR HB HF HU.
  intros m o o' H H'. unfold winkler in H, H'.
  destruct (bld zero Initial) as [K|e] eqn:E; cbn [bind] in H; [|discriminate H]. destruct (bld' zero Initial) as [K'|e'] eqn:E'; cbn [bind] in H'; [|discriminate H'].
  assert (Z : agree n D zero zero) by (intros i Hi Di; reflexivity).
  refine (loop_together (S m) 0 _ _ _ _ _ _ _ _ _ _ o o' _ _ _ _ _ Z HU (HB zero zero Initial K K' Z E E') HF _ H H'); [lia|reflexivity|reflexivity|left; reflexivity|left; reflexivity|constructor].
Qed.
End Solve.

Lemma across_class : forall i j, across i <> across j -> along i <> along j.
Proof. intros i j H E. apply H. rewrite !across_along, E. reflexivity. Qed.
Lemma along_class : forall i j, along i <> along j -> along i <> along j.
Proof. auto. Qed.

Lemma supports_alike : forall n D r r' U U', held_alike n D r r' -> agree n D U U' -> held_alike n D (supports_of r U) (supports_of r' U').
Proof. intros n D r r' U U' H H' i Hi Di. unfold supports_of. rewrite (H i Hi Di), (Qeqb_comp (U i) (U' i) 0 0 (H' i Hi Di)) by reflexivity. reflexivity. Qed.
