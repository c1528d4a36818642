(** The pile-soil stiffness matrix: virtual work, symmetry, energy, stability. *)
From Coq Require Import List Bool Arith ZArith QArith Qabs Qminmax Lia Lqa Setoid.
From Verif Require Import Base LinAlg PileModel BeamModel BeamSpec BeamProofs SolveModel SolveSpec SolveProofs ForceProofs SpringModel SpringSpec SpringProofs.
Import ListNotations.
Local Open Scope Q_scope.

Lemma dot_mplus : forall n K K' u du, dot n du (mulv n (fun i j => K i j + K' i j) u) == dot n du (mulv n K u) + dot n du (mulv n K' u).
Proof. intros. unfold dot. rewrite <- sum_plus. apply sum_ext. intros i Hi. rewrite mulv_mplus. ring. Qed.

Lemma add_diag_work : forall n p v K u du, (0 < p)%nat -> (p <= n)%nat ->
  dot n du (mulv n (add_diag n p v K) u) == dot n du (mulv n K u) + v * u (n - p)%nat * du (n - p)%nat.
Proof.
  intros n p v K u du P1 P2.
  rewrite (dot_ext n _ _ du (mulv n (fun i j => K i j + (if (Nat.eqb i (n - p) && Nat.eqb j (n - p))%bool then v else 0)) u)).
  2:{ intros i Hi; reflexivity. }
  2:{ intros i Hi. apply mulv_ext; intros; [apply add_diag_entry|reflexivity]. }
  rewrite dot_mplus. apply Qplus_comp; [reflexivity|].
  unfold dot, mulv.
  rewrite (sum_ext n _ (fun i => if Nat.eqb i (n - p) then du i * (v * u (n - p)%nat) else 0)).
  - rewrite sum_delta by lia. ring.
  - intros i Hi. destruct (Nat.eqb i (n - p)) eqn:E; cbn [andb].
    + apply Qmult_comp; [reflexivity|]. rewrite <- (sum_delta n (n - p) (fun j => v * u j)) by lia.
      apply sum_ext. intros j Hj. destruct (Nat.eqb j (n - p)); ring.
    + rewrite sum_zero; [ring|]. intros; ring.
Qed.

(** Work of the soil acting on element [e]. *)
Definition soil_work (M : wmodel) (kp kz km : nat -> Q * Q) (v dv : vec) (e : nat) : Q :=
  (match w_py M with None => 0 | Some _ => dot 6 (elem_disp dv e) (mulv 6 (elem_py (w_L M e) (fst (kp e)) (snd (kp e))) (elem_disp v e)) end) +
  (match w_tz M with None => 0 | Some _ => dot 6 (elem_disp dv e) (mulv 6 (elem_tz (w_L M e) (fst (kz e)) (snd (kz e))) (elem_disp v e)) end) +
  (match w_mt M with None => 0 | Some _ => dot 6 (elem_disp dv e) (mulv 6 (mt_matrix (w_mtc M e) (fst (km e)) (snd (km e))) (elem_disp v e)) end).

(** The stiffness values found in the matrix are those of the springs. *)
Definition spring_values (M : wmodel) (u : vec) (k : kind) (kp kz km : nat -> Q * Q) (h m q : Q) : Prop :=
  (forall py, w_py M = Some py -> forall e, (e < w_n M)%nat ->
     py_spring (spring_disp (w_n M) u 1 e 0) (py e 0%nat) k = Ok (fst (kp e)) /\ py_spring (spring_disp (w_n M) u 1 e 1) (py e 1%nat) k = Ok (snd (kp e))) /\
  (forall tz, w_tz M = Some tz -> forall e, (e < w_n M)%nat ->
     tz_spring (spring_disp (w_n M) u 0 e 0) (tz e 0%nat) k = Ok (fst (kz e)) /\ tz_spring (spring_disp (w_n M) u 0 e 1) (tz e 1%nat) k = Ok (snd (kz e))) /\
  (forall py mt, w_py M = Some py -> w_mt M = Some mt -> forall e, (e < w_n M)%nat ->
     (exists p, mt_spring (spring_disp (w_n M) u 2 e 0) p (map snd (py e 0%nat)) (mt e 0%nat) k = Ok (fst (km e))) /\
     (exists p, mt_spring (spring_disp (w_n M) u 2 e 1) p (map snd (py e 1%nat)) (mt e 1%nat) k = Ok (snd (km e)))) /\
  match w_hb M with None => h = 0 | Some c => base_spring (u (3 * w_n M + 1)%nat) c k = Ok h end /\
  match w_mb M with None => m = 0 | Some c => base_spring (u (3 * w_n M + 2)%nat) c k = Ok m end /\
  match w_qz M with None => q = 0 | Some c => base_axial_spring (u (3 * w_n M)%nat) c k = Ok q end.

Lemma ok_inj : forall a b : Q, Ok a = Ok b -> a = b.
Proof. intros a b H. congruence. Qed.

Lemma add_base_ok : forall M p o f u k K K', add_base M p o f u k K = Ok K' ->
  exists v, match o with None => v = 0 /\ K' = K | Some c => f (u (size M - p)%nat) c k = Ok v /\ K' = add_diag (size M) p v K end.
Proof.
  intros M p o f u k K K' H. unfold add_base, opt_res in H. destruct o as [c|].
  - destruct (f _ c k) as [v|] eqn:E; cbn [bind] in H; [|discriminate]. exists v. split; [auto|congruence].
  - exists 0. split; [auto|congruence].
Qed.

Lemma base_work : forall M p (o : option curve) K' K (v : Q) (P : curve -> Prop),
  match o with None => v = 0 /\ K' = K | Some c => P c /\ K' = add_diag (size M) p v K end -> (0 < p)%nat -> (p <= 3)%nat -> forall u du,
  dot (size M) du (mulv (size M) K' u) == dot (size M) du (mulv (size M) K u) + v * u (size M - p)%nat * du (size M - p)%nat.
Proof.
  intros M p o K' K v P H P1 P2 u du. destruct o as [c|]; destruct H as [H ->].
  - apply add_diag_work; unfold size in *; lia.
  - subst v. ring.
Qed.

Lemma springs_ok : forall n (f : nat -> nat -> res Q) l, collect n (fun e => both (f e)) = Ok l ->
  forall e, (e < n)%nat -> f e 0%nat = Ok (fst (kpair l e)) /\ f e 1%nat = Ok (snd (kpair l e)).
Proof.
  intros n f l H e He. destruct (collect_ok n _ l (0, 0) H) as [_ X]. specialize (X e He). cbv beta in X. apply both_ok.
  unfold kpair. rewrite X. rewrite <- surjective_pairing. reflexivity.
Qed.

Lemma build_parts : forall M u k K, build M u k = Ok K ->
  exists kp kz km h m q, spring_values M u k kp kz km h m q /\
  (forall v dv, dot (size M) dv (mulv (size M) K v) ==
     sum (w_n M) (fun e => dot 6 (elem_disp dv e) (mulv 6 (w_mech M e) (elem_disp v e)) + soil_work M kp kz km v dv e)
     + h * v (3 * w_n M + 1)%nat * dv (3 * w_n M + 1)%nat + m * v (3 * w_n M + 2)%nat * dv (3 * w_n M + 2)%nat
     + q * v (3 * w_n M)%nat * dv (3 * w_n M)%nat).
Proof.
  intros M u k K H. unfold build in H.
  destruct (soil_elements M u k) as [ks|] eqn:SE; cbn [bind] in H; [|discriminate].
  destruct (add_base M 2 (w_hb M) base_spring u k (jit_build (w_n M) ks)) as [K1|] eqn:B2; cbn [bind] in H; [|discriminate].
  destruct (add_base M 1 (w_mb M) base_spring u k K1) as [K2|] eqn:B1; cbn [bind] in H; [|discriminate].
  apply add_base_ok in B2. destruct B2 as [h B2]. apply add_base_ok in B1. destruct B1 as [m B1]. apply add_base_ok in H. destruct H as [q B3].
  unfold soil_elements in SE.
  assert (P : exists kp k1, (forall py, w_py M = Some py -> forall e, (e < w_n M)%nat ->
     py_spring (spring_disp (w_n M) u 1 e 0) (py e 0%nat) k = Ok (fst (kp e)) /\ py_spring (spring_disp (w_n M) u 1 e 1) (py e 1%nat) k = Ok (snd (kp e))) /\
     (forall e v dv, dot 6 (elem_disp dv e) (mulv 6 (k1 e) (elem_disp v e)) == dot 6 (elem_disp dv e) (mulv 6 (w_mech M e) (elem_disp v e)) +
       match w_py M with None => 0 | Some _ => dot 6 (elem_disp dv e) (mulv 6 (elem_py (w_L M e) (fst (kp e)) (snd (kp e))) (elem_disp v e)) end) /\
     opt_res (w_py M) (w_mech M) (fun py => bind (py_stiffness M py u k) (fun l => Ok (fun e => madd (w_mech M e) (elem_py (w_L M e) (fst (kpair l e)) (snd (kpair l e)))))) = Ok k1).
  { destruct (w_py M) as [py|]; cbn [opt_res] in SE |- *.
    - destruct (py_stiffness M py u k) as [l|] eqn:L; cbn [bind] in SE |- *; [|discriminate].
      exists (kpair l), (fun e => madd (w_mech M e) (elem_py (w_L M e) (fst (kpair l e)) (snd (kpair l e)))).
      split; [|split; [|reflexivity]].
      + intros py' E. assert (py' = py) by congruence. subst py'. intros e He. apply (springs_ok _ _ l L e He).
      + intros. apply dot_mplus.
    - exists (fun _ => (0, 0)), (w_mech M). split; [intros; discriminate|]. split; [|reflexivity]. intros; ring. }
  destruct P as (kp & k1 & KP & W1 & E1). rewrite E1 in SE. cbn [bind] in SE.
  assert (P : exists kz k2, (forall tz, w_tz M = Some tz -> forall e, (e < w_n M)%nat ->
     tz_spring (spring_disp (w_n M) u 0 e 0) (tz e 0%nat) k = Ok (fst (kz e)) /\ tz_spring (spring_disp (w_n M) u 0 e 1) (tz e 1%nat) k = Ok (snd (kz e))) /\
     (forall e v dv, dot 6 (elem_disp dv e) (mulv 6 (k2 e) (elem_disp v e)) == dot 6 (elem_disp dv e) (mulv 6 (k1 e) (elem_disp v e)) +
       match w_tz M with None => 0 | Some _ => dot 6 (elem_disp dv e) (mulv 6 (elem_tz (w_L M e) (fst (kz e)) (snd (kz e))) (elem_disp v e)) end) /\
     opt_res (w_tz M) k1 (fun tz => bind (tz_stiffness M tz u k) (fun l => Ok (fun e => madd (k1 e) (elem_tz (w_L M e) (fst (kpair l e)) (snd (kpair l e)))))) = Ok k2).
  { destruct (w_tz M) as [tz|]; cbn [opt_res] in SE |- *.
    - destruct (tz_stiffness M tz u k) as [l|] eqn:L; cbn [bind] in SE |- *; [|discriminate].
      exists (kpair l), (fun e => madd (k1 e) (elem_tz (w_L M e) (fst (kpair l e)) (snd (kpair l e)))).
      split; [|split; [|reflexivity]].
      + intros tz' E. assert (tz' = tz) by congruence. subst tz'. intros e He. apply (springs_ok _ _ l L e He).
      + intros. apply dot_mplus.
    - exists (fun _ => (0, 0)), k1. split; [intros; discriminate|]. split; [|reflexivity]. intros; ring. }
  destruct P as (kz & k2 & KZ & W2 & E2). rewrite E2 in SE. cbn [bind] in SE.
  assert (P : exists km, (forall py mt, w_py M = Some py -> w_mt M = Some mt -> forall e, (e < w_n M)%nat ->
     (exists p, mt_spring (spring_disp (w_n M) u 2 e 0) p (map snd (py e 0%nat)) (mt e 0%nat) k = Ok (fst (km e))) /\
     (exists p, mt_spring (spring_disp (w_n M) u 2 e 1) p (map snd (py e 1%nat)) (mt e 1%nat) k = Ok (snd (km e)))) /\
     (forall e v dv, dot 6 (elem_disp dv e) (mulv 6 (ks e) (elem_disp v e)) == dot 6 (elem_disp dv e) (mulv 6 (k2 e) (elem_disp v e)) +
       match w_mt M with None => 0 | Some _ => dot 6 (elem_disp dv e) (mulv 6 (mt_matrix (w_mtc M e) (fst (km e)) (snd (km e))) (elem_disp v e)) end)).
  { destruct (w_mt M) as [mt|]; cbn [opt_res] in SE.
    - destruct (w_py M) as [py|]; [|discriminate]. destruct (mt_stiffness M py mt u k) as [l|] eqn:L; cbn [bind] in SE; [|discriminate].
      exists (kpair l). split.
      + intros py' mt' EP EM. assert (py' = py) by congruence. assert (mt' = mt) by congruence. subst py' mt'. intros e He.
        destruct (springs_ok _ _ l L e He) as [X0 X1]. cbv beta in X0, X1.
        split; [destruct (py_spring _ (py e 0%nat) Secant) as [s|]|destruct (py_spring _ (py e 1%nat) Secant) as [s|]]; cbn [bind] in X0, X1; try discriminate; eauto.
      + intros e v dv. assert (E : ks = fun e => madd (k2 e) (mt_matrix (w_mtc M e) (fst (kpair l e)) (snd (kpair l e)))) by congruence.
        rewrite E. apply dot_mplus.
    - exists (fun _ => (0, 0)). split; [intros; discriminate|]. intros. assert (E : ks = k2) by congruence. rewrite E. ring. }
  destruct P as (km & KM & W3).
  exists kp, kz, km, h, m, q. split.
  - assert (S2 : (size M - 2 = 3 * w_n M + 1)%nat) by (unfold size; lia).
    assert (S1 : (size M - 1 = 3 * w_n M + 2)%nat) by (unfold size; lia).
    assert (S3 : (size M - 3 = 3 * w_n M)%nat) by (unfold size; lia).
    rewrite S2 in B2. rewrite S1 in B1. rewrite S3 in B3.
    unfold spring_values. split; [exact KP|]. split; [exact KZ|]. split; [exact KM|].
    split; [destruct (w_hb M); apply B2|]. split; [destruct (w_mb M); apply B1|]. destruct (w_qz M); apply B3.
  - intros v dv. rewrite (base_work M 3 _ _ _ q (fun c => base_axial_spring (u (size M - 3)%nat) c k = Ok q) B3) by lia. rewrite (base_work M 1 _ _ _ m (fun c => base_spring (u (size M - 1)%nat) c k = Ok m) B1) by lia. rewrite (base_work M 2 _ _ _ h (fun c => base_spring (u (size M - 2)%nat) c k = Ok h) B2) by lia.
    unfold size. replace (3 * w_n M + 3 - 3)%nat with (3 * w_n M)%nat by lia. replace (3 * w_n M + 3 - 1)%nat with (3 * w_n M + 2)%nat by lia.
    replace (3 * w_n M + 3 - 2)%nat with (3 * w_n M + 1)%nat by lia.
    rewrite build_work. do 3 (apply Qplus_comp; [|reflexivity]). apply sum_ext. intros e He. unfold soil_work. rewrite W3, W2, W1. ring.
Qed.

(** Requirements on the data of a model. *)
Record sound_model (M : wmodel) (z : nat -> Q) : Prop := {
  sm_len : forall e, (e < w_n M)%nat -> w_L M e = z e - z (S e) /\ 0 < w_L M e;
  sm_mech : forall e, (e < w_n M)%nat -> elem_deforms (w_L M e) (w_mech M e);
  sm_mtc : forall mt, w_mt M = Some mt -> forall e, (e < w_n M)%nat -> forall kt kb, 0 <= kt -> 0 <= kb -> psd 6 (mt_matrix (w_mtc M e) kt kb);
  sm_mt : forall py mt, w_py M = Some py -> w_mt M = Some mt -> forall e j, (e < w_n M)%nat -> (j < 2)%nat ->
     forall col q, In col (mt e j) -> In q col -> 0 <= fst q;
  sm_pair : w_mt M = None \/ exists py, w_py M = Some py }.

Section System.
Variables (M : wmodel) (z : nat -> Q) (u : vec) (k : kind) (K : mat).
Hypothesis SM : sound_model M z.
Hypothesis HB : build M u k = Ok K.
Let n := w_n M.
Let N := size M.

Lemma values_nonneg : forall kp kz km h m q, spring_values M u k kp kz km h m q ->
  0 <= h /\ 0 <= m /\ 0 <= q /\ forall e v, (e < n)%nat -> 0 <= soil_work M kp kz km v v e /\
    (w_py M <> None -> 0 <= fst (kp e) /\ 0 <= snd (kp e)) /\ (w_tz M <> None -> 0 <= fst (kz e) /\ 0 <= snd (kz e)).
Proof.
  intros kp kz km h m q (VP & VZ & VM & VH & VB & VQ).
  assert (BH : 0 <= h) by (destruct (w_hb M); [exact (base_nonneg _ _ _ _ VH)|subst; lra]).
  assert (BM : 0 <= m) by (destruct (w_mb M); [exact (base_nonneg _ _ _ _ VB)|subst; lra]).
  assert (BQ : 0 <= q) by (destruct (w_qz M); [exact (base_axial_nonneg _ _ _ _ VQ)|subst; lra]).
  split; [auto|]. split; [auto|]. split; [auto|]. intros e v He.
  pose proof (proj2 (sm_len M z SM e He)) as LP.
  assert (NP : w_py M <> None -> 0 <= fst (kp e) /\ 0 <= snd (kp e)).
  { destruct (w_py M) as [py|]; [|contradiction]. intros _. destruct (VP py eq_refl e He) as [A B]. split; eapply py_nonneg; eauto. }
  assert (NZ : w_tz M <> None -> 0 <= fst (kz e) /\ 0 <= snd (kz e)).
  { destruct (w_tz M) as [tz|]; [|contradiction]. intros _. destruct (VZ tz eq_refl e He) as [A B]. split; eapply tz_nonneg; eauto. }
  split; [|split; auto].
  unfold soil_work.
  assert (P1 : 0 <= match w_py M with None => 0 | Some _ => dot 6 (elem_disp v e) (mulv 6 (elem_py (w_L M e) (fst (kp e)) (snd (kp e))) (elem_disp v e)) end).
  { destruct (w_py M); [|lra]. destruct NP as [A B]; [discriminate|]. apply py_psd; auto. lra. }
  assert (P2 : 0 <= match w_tz M with None => 0 | Some _ => dot 6 (elem_disp v e) (mulv 6 (elem_tz (w_L M e) (fst (kz e)) (snd (kz e))) (elem_disp v e)) end).
  { destruct (w_tz M); [|lra]. destruct NZ as [A B]; [discriminate|]. apply tz_psd; auto. lra. }
  assert (P3 : 0 <= match w_mt M with None => 0 | Some _ => dot 6 (elem_disp v e) (mulv 6 (mt_matrix (w_mtc M e) (fst (km e)) (snd (km e))) (elem_disp v e)) end).
  { destruct (w_mt M) as [mt|] eqn:EM; [|lra]. destruct (sm_pair M z SM) as [X|[py EP]]; [congruence|].
    destruct (VM py mt EP eq_refl e He) as [[p0 A] [p1 B]].
    apply (sm_mtc M z SM mt EM e He); eapply mt_nonneg; eauto; apply first_rotation; apply (sm_mt M z SM py mt EP EM e); auto. }
  lra.
Qed.

Lemma system_parts : exists kp kz km h m q, spring_values M u k kp kz km h m q /\
  forall v, energy N K v == energy (3 * n + 3) (jit_build n (w_mech M)) v + sum n (soil_work M kp kz km v v)
    + h * (v (3 * n + 1)%nat * v (3 * n + 1)%nat) + m * (v (3 * n + 2)%nat * v (3 * n + 2)%nat) + q * (v (3 * n)%nat * v (3 * n)%nat).
Proof.
  destruct (build_parts M u k K HB) as (kp & kz & km & h & m & q & V & W). exists kp, kz, km, h, m, q. split; auto.
  intros v. unfold energy at 1. unfold N. rewrite W. rewrite build_energy. fold n. rewrite (sum_plus n). unfold energy. ring.
Qed.

Lemma system_psd : psd N K.
Proof.
  destruct system_parts as (kp & kz & km & h & m & q & V & W). destruct (values_nonneg _ _ _ _ _ _ V) as (H1 & H2 & H3 & H4).
  intros v. rewrite W.
  assert (E : 0 <= energy (3 * n + 3) (jit_build n (w_mech M)) v) by (apply build_psd; intros e He; apply (sm_mech M z SM e He)).
  assert (F : 0 <= sum n (soil_work M kp kz km v v)) by (apply sum_nonneg; intros e He; apply (H4 e v He)).
  pose proof (mul_nonneg h _ H1 (square_nonneg (v (3 * n + 1)%nat))). pose proof (mul_nonneg m _ H2 (square_nonneg (v (3 * n + 2)%nat))).
  pose proof (mul_nonneg q _ H3 (square_nonneg (v (3 * n)%nat))). lra.
Qed.

Lemma add_diag_symmetric : forall p v A, symmetric N A -> symmetric N (add_diag N p v A).
Proof. intros p v A H i j Hi Hj. rewrite !add_diag_entry, (H i j Hi Hj). rewrite (andb_comm (Nat.eqb j _)). reflexivity. Qed.

(** A matrix whose virtual work is symmetric is symmetric. *)
Lemma work_symmetric : forall A, (forall v w, dot N w (mulv N A v) == dot N v (mulv N A w)) -> symmetric N A.
Proof.
  intros A H i j Hi Hj. set (b := fun i0 => (fun x => if Nat.eqb x i0 then 1 else 0) : vec).
  assert (X : forall a c, (a < N)%nat -> (c < N)%nat -> dot N (b a) (mulv N A (b c)) == A a c).
  { intros a c Ha Hc. unfold dot. rewrite (sum_ext N _ (fun x => if Nat.eqb x a then mulv N A (b c) x else 0)).
    - rewrite sum_delta by auto. unfold mulv. rewrite (sum_ext N _ (fun x => if Nat.eqb x c then A a x else 0)).
      + rewrite sum_delta by auto. reflexivity.
      + intros x Hx. unfold b. destruct (Nat.eqb x c); ring.
    - intros x Hx. unfold b at 1. destruct (Nat.eqb x a); ring. }
  rewrite <- (X i j Hi Hj), <- (X j i Hj Hi). apply H.
Qed.

Lemma system_symmetric : symmetric N K.
Proof.
  destruct (build_parts M u k K HB) as (kp & kz & km & h & m & q & V & W). apply work_symmetric. intros v w. unfold N. rewrite !W.
  rewrite (sum_ext (w_n M) _ (fun e => dot 6 (elem_disp v e) (mulv 6 (w_mech M e) (elem_disp w e)) + soil_work M kp kz km w v e)); [ring|].
  intros e He. apply Qplus_comp; [apply symmetric_work, (sm_mech M z SM e He)|].
  unfold soil_work. apply Qplus_comp; [apply Qplus_comp|].
  - destruct (w_py M); [|reflexivity]. apply symmetric_work, py_symmetric.
  - destruct (w_tz M); [|reflexivity]. apply symmetric_work, tz_symmetric.
  - destruct (w_mt M); [|reflexivity]. apply symmetric_work, mt_symmetric.
Qed.

Lemma tz_rigid_energy : forall L kt kb v, v 3%nat == v 0%nat -> energy 6 (elem_tz L kt kb) v == L * (kt + kb) / 2 * (v 0%nat * v 0%nat).
Proof.
  intros L kt kb v E. unfold energy. rewrite tz_consistent. unfold pint, axial, linear_k. cbn. rewrite E. field.
Qed.

Variable r : nat -> bool.

(** lateral resistance: a p-y spring with positive stiffness *)
Hypothesis LAT : exists py e j s, w_py M = Some py /\ (e < n)%nat /\ (j < 2)%nat /\ py_spring (spring_disp n u 1 e j) (py e j) k = Ok s /\ 0 < s.
(** axial resistance: a support, a t-z spring or a base spring with positive stiffness *)
Hypothesis AX : (exists a, (a <= n)%nat /\ r (3 * a)%nat = true) \/
  (exists tz e j s, w_tz M = Some tz /\ (e < n)%nat /\ (j < 2)%nat /\ tz_spring (spring_disp n u 0 e j) (tz e j) k = Ok s /\ 0 < s) \/
  (exists c s, w_qz M = Some c /\ base_axial_spring (u (3 * n)%nat) c k = Ok s /\ 0 < s).

Lemma sum_term_zero : forall m f, (forall i, (i < m)%nat -> 0 <= f i) -> sum m f == 0 -> forall i, (i < m)%nat -> f i == 0.
Proof.
  induction m as [|m IH]; intros f P S0 i Hi; [lia|]. cbn [sum] in S0.
  assert (A : 0 <= sum m f) by (apply sum_nonneg; intros; apply P; lia). pose proof (P m ltac:(lia)).
  destruct (Nat.eq_dec i m) as [->|]; [lra|]. apply IH; try lia; [intros; apply P; lia|lra].
Qed.

Lemma system_stable : stable N K r.
Proof.
  intros v V0 KV.
  assert (E0 : energy N K v == 0).
  { unfold energy, dot. apply sum_zero. intros j Hj. destruct (r j) eqn:Rj; [rewrite V0 by auto|rewrite KV by auto]; ring. }
  destruct system_parts as (kp & kz & km & h & m & q & V & W). destruct (values_nonneg _ _ _ _ _ _ V) as (H1 & H2 & H3 & H4).
  rewrite W in E0.
  assert (E : 0 <= energy (3 * n + 3) (jit_build n (w_mech M)) v) by (apply build_psd; intros e He; apply (sm_mech M z SM e He)).
  assert (F : 0 <= sum n (soil_work M kp kz km v v)) by (apply sum_nonneg; intros e He; apply (H4 e v He)).
  pose proof (mul_nonneg h _ H1 (square_nonneg (v (3 * n + 1)%nat))) as G1. pose proof (mul_nonneg m _ H2 (square_nonneg (v (3 * n + 2)%nat))) as G2.
  pose proof (mul_nonneg q _ H3 (square_nonneg (v (3 * n)%nat))) as G3.
  assert (EM : energy (3 * n + 3) (jit_build n (w_mech M)) v == 0) by lra.
  assert (ES : sum n (soil_work M kp kz km v v) == 0) by lra.
  assert (EQ : q * (v (3 * n)%nat * v (3 * n)%nat) == 0) by lra.
  assert (HD : forall e, (e < n)%nat -> elem_deforms (z e - z (S e)) (w_mech M e)).
  { intros e He. rewrite <- (proj1 (sm_len M z SM e He)). apply (sm_mech M z SM e He). }
  pose proof (undeformed_rigid n (w_mech M) z HD v EM) as R.
  pose proof (sum_term_zero n _ (fun e He => proj1 (H4 e v He)) ES) as SZ.
  (* split of the soil work of an element *)
  assert (SP : forall e, (e < n)%nat ->
     (w_py M <> None -> energy 6 (elem_py (w_L M e) (fst (kp e)) (snd (kp e))) (elem_disp v e) == 0) /\
     (w_tz M <> None -> energy 6 (elem_tz (w_L M e) (fst (kz e)) (snd (kz e))) (elem_disp v e) == 0)).
  { intros e He. specialize (SZ e He). unfold soil_work in SZ.
    pose proof (proj2 (sm_len M z SM e He)) as LP. destruct (H4 e v He) as (_ & NP & NZ).
    destruct V as (VP & VZ & VM & VH & VB & VQ).
    assert (P1 : 0 <= match w_py M with None => 0 | Some _ => dot 6 (elem_disp v e) (mulv 6 (elem_py (w_L M e) (fst (kp e)) (snd (kp e))) (elem_disp v e)) end).
    { destruct (w_py M); [|lra]. destruct NP as [A B]; [discriminate|]. apply py_psd; auto. lra. }
    assert (P2 : 0 <= match w_tz M with None => 0 | Some _ => dot 6 (elem_disp v e) (mulv 6 (elem_tz (w_L M e) (fst (kz e)) (snd (kz e))) (elem_disp v e)) end).
    { destruct (w_tz M); [|lra]. destruct NZ as [A B]; [discriminate|]. apply tz_psd; auto. lra. }
    assert (P3 : 0 <= match w_mt M with None => 0 | Some _ => dot 6 (elem_disp v e) (mulv 6 (mt_matrix (w_mtc M e) (fst (km e)) (snd (km e))) (elem_disp v e)) end).
    { destruct (w_mt M) as [mt|] eqn:EMt; [|lra]. destruct (sm_pair M z SM) as [X|[py EP]]; [congruence|].
      destruct (VM py mt EP eq_refl e He) as [[p0 A] [p1 B]].
      apply (sm_mtc M z SM mt EMt e He); eapply mt_nonneg; eauto; apply first_rotation; apply (sm_mt M z SM py mt EP EMt e); auto. }
    split; intros NN; unfold energy.
    - destruct (w_py M); [|contradiction]. destruct (w_tz M), (w_mt M); lra.
    - destruct (w_tz M); [|contradiction]. destruct (w_py M), (w_mt M); lra. }
  assert (LZ : v 1%nat == 0 /\ v 2%nat == 0).
  { destruct LAT as (py & e & j & s & EP & He & Hj & ES' & PS). destruct (SP e He) as [SPe _]. destruct (H4 e v He) as (_ & NP & _).
    rewrite EP in *. destruct NP as [A B]; [discriminate|].
    destruct V as (VP & _). destruct (VP py EP e He) as [V1 V2].
    assert (KP : 0 < fst (kp e) + snd (kp e)).
    { destruct j as [|[|]]; try lia; [pose proof (ok_inj _ _ (eq_trans (eq_sym ES') V1)) as X|pose proof (ok_inj _ _ (eq_trans (eq_sym ES') V2)) as X]; rewrite X in PS; lra. }
    destruct (py_definite _ _ _ _ (proj2 (sm_len M z SM e He)) A B KP (SPe ltac:(discriminate))) as (D1 & D2 & _ & _).
    unfold elem_disp in D1, D2. destruct (R e ltac:(lia)) as (_ & R1 & R2). rewrite R1 in D1. rewrite R2 in D2. rewrite D2 in D1. split; [lra|auto]. }
  destruct LZ as [L1 L2].
  assert (AZ : v 0%nat == 0).
  { assert (SQ : forall s a, 0 < s -> s * (a * a) == 0 -> a == 0).
    { intros s a P X. apply Qmult_integral in X. destruct X as [X|X]; [lra|]. apply Qmult_integral in X. tauto. }
    destruct AX as [(a & Ha & Ra)|[(tz & e & j & s & EZ & He & Hj & EV & PS)|(c & s & EC & EV & PS)]].
    - destruct (R a Ha) as (R0 & _). rewrite <- R0. apply V0; auto. unfold N, size; fold n; lia.
    - destruct (SP e He) as [_ SPe]. destruct (H4 e v He) as (_ & _ & NZ). rewrite EZ in *. destruct NZ as [A B]; [discriminate|].
      destruct V as (_ & VZ & _). destruct (VZ tz EZ e He) as [V1 V2].
      assert (KZ : 0 < fst (kz e) + snd (kz e)).
      { destruct j as [|[|]]; try lia; [pose proof (ok_inj _ _ (eq_trans (eq_sym EV) V1)) as X|pose proof (ok_inj _ _ (eq_trans (eq_sym EV) V2)) as X]; rewrite X in PS; lra. }
      pose proof (proj2 (sm_len M z SM e He)) as LP.
      destruct (R e ltac:(lia)) as (R0 & _). destruct (R (S e) ltac:(lia)) as (R1 & _).
      specialize (SPe ltac:(discriminate)). rewrite tz_rigid_energy in SPe.
      + unfold elem_disp in SPe. rewrite Nat.add_0_r in SPe. rewrite <- R0. apply (SQ (w_L M e * (fst (kz e) + snd (kz e)) / 2)); auto.
        apply div_pos; [apply mul_pos; auto|lra].
      + unfold elem_disp. rewrite Nat.add_0_r. replace (3 * e + 3)%nat with (3 * S e)%nat by lia. rewrite R0, R1. reflexivity.
    - destruct V as (_ & _ & _ & _ & _ & VQ). rewrite EC in VQ. pose proof (ok_inj _ _ (eq_trans (eq_sym EV) VQ)) as X. rewrite X in PS.
      destruct (R n ltac:(lia)) as (R0 & _). rewrite <- R0. apply (SQ q); auto. }
  intros i Hi. assert (DI : exists a c, (a <= n)%nat /\ (c < 3)%nat /\ i = (3 * a + c)%nat).
  { exists (i / 3)%nat, (i mod 3)%nat. pose proof (Nat.div_mod i 3 ltac:(lia)). pose proof (Nat.mod_upper_bound i 3 ltac:(lia)).
    unfold N, size in Hi. fold n in Hi. repeat split; lia. }
  destruct DI as (a & c & Ha & Hc & ->). destruct (R a Ha) as (R0 & R1 & R2). destruct c as [|[|[|]]]; try lia.
  - rewrite Nat.add_0_r, R0. auto.
  - rewrite R1, L1, L2. ring.
  - rewrite R2. auto.
Qed.

(** Supports that hold the pile are enough. *)
Lemma system_held : held n r -> stable N K r.
Proof.
  intros HL v V0 KV.
  assert (E0 : energy N K v == 0).
  { unfold energy, dot. apply sum_zero. intros j Hj. destruct (r j) eqn:Rj; [rewrite V0 by auto|rewrite KV by auto]; ring. }
  destruct system_parts as (kp & kz & km & h & m & q & V & W). destruct (values_nonneg _ _ _ _ _ _ V) as (H1 & H2 & H3 & H4).
  rewrite W in E0.
  assert (E : 0 <= energy (3 * n + 3) (jit_build n (w_mech M)) v) by (apply build_psd; intros e He; apply (sm_mech M z SM e He)).
  assert (F : 0 <= sum n (soil_work M kp kz km v v)) by (apply sum_nonneg; intros e He; apply (H4 e v He)).
  pose proof (mul_nonneg h _ H1 (square_nonneg (v (3 * n + 1)%nat))) as G1. pose proof (mul_nonneg m _ H2 (square_nonneg (v (3 * n + 2)%nat))) as G2.
  pose proof (mul_nonneg q _ H3 (square_nonneg (v (3 * n)%nat))) as G3.
  assert (EM : energy (3 * n + 3) (jit_build n (w_mech M)) v == 0) by lra.
  assert (HD : forall e, (e < n)%nat -> elem_deforms (z e - z (S e)) (w_mech M e)).
  { intros e He. rewrite <- (proj1 (sm_len M z SM e He)). apply (sm_mech M z SM e He). }
  assert (HZ : forall e, (e < n)%nat -> z (S e) < z e) by (intros e He; destruct (sm_len M z SM e He) as [A B]; rewrite A in B; lra).
  exact (held_rigid_zero n (w_mech M) z r HD HZ HL v V0 EM).
Qed.
End System.

(** Euler-Bernoulli coefficients meet the requirement on the m-t matrix. *)
Lemma eb_mtc_ok : forall L w a l kt kb, 0 < L -> 0 <= kt -> 0 <= kb -> psd 6 (mt_matrix (mt_coefs EulerBernoulli w a l L) kt kb).
Proof. intros. apply mt_eb_psd; auto. Qed.
