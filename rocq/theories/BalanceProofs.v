(** Global balance of the pile-soil stiffness matrix. *)
From Coq Require Import List Bool Arith ZArith QArith Lia Lqa Setoid.
From Verif Require Import Base LinAlg PileModel BeamModel BeamSpec BeamProofs SolveModel SolveSpec SolveProofs ForceProofs SpringModel SpringSpec SpringProofs SoilProofs BalanceSpec.
Import ListNotations.
Local Open Scope Q_scope.

Lemma mod3 : forall a r, (r < 3)%nat -> ((3 * a + r) mod 3 = r /\ (3 * a + r) / 3 = a)%nat.
Proof.
  intros a r Hr. rewrite Nat.add_comm, Nat.mul_comm. split.
  - rewrite Nat.mod_add by lia. apply Nat.mod_small; auto.
  - rewrite Nat.div_add by lia. rewrite Nat.div_small; auto.
Qed.

Lemma rigid_at : forall z a v t i, rigid z a v t (3 * i)%nat = a /\ rigid z a v t (3 * i + 1)%nat = v + t * (z O - z i) /\ rigid z a v t (3 * i + 2)%nat = t.
Proof.
  intros. unfold rigid. assert (E : ((3 * i) mod 3 = 0)%nat) by (rewrite Nat.mul_comm; apply Nat.mod_mul; lia). rewrite E.
  destruct (mod3 i 1 ltac:(lia)) as [-> ->]. destruct (mod3 i 2 ltac:(lia)) as [-> _]. auto.
Qed.

Lemma sum3 : forall n (g : nat -> Q), sum (3 * n + 3) g == sum (S n) (fun a => g (3 * a)%nat + g (3 * a + 1)%nat + g (3 * a + 2)%nat).
Proof.
  induction n as [|n IH]; intros g.
  - cbn [Nat.mul Nat.add sum]. ring.
  - replace (3 * S n + 3)%nat with (S (S (S (3 * n + 3)))) by lia. cbn [sum] in *.
    rewrite IH. replace (3 * S n)%nat with (3 * n + 3)%nat by lia.
    replace (3 * n + 3 + 1)%nat with (S (3 * n + 3)) by lia. replace (3 * n + 3 + 2)%nat with (S (S (3 * n + 3))) by lia. ring.
Qed.

Lemma dot_rigid : forall n z a v t G, dot (3 * n + 3) (rigid z a v t) G == a * total_axial n G + v * total_lateral n G + t * total_moment n z G.
Proof.
  intros. unfold dot, total_axial, total_lateral, total_moment. rewrite sum3.
  rewrite <- !sum_scale, <- !sum_plus. apply sum_ext. intros i Hi. destruct (rigid_at z a v t i) as (-> & -> & ->). ring.
Qed.

Lemma dot_mulv_ext : forall K v dv dv', veq 6 dv dv' -> dot 6 dv (mulv 6 K v) == dot 6 dv' (mulv 6 K v).
Proof. intros. apply dot_ext; [assumption|intros i Hi; reflexivity]. Qed.

Lemma mech_silent : forall L K v w, elem_deforms L K -> forall a d t, veq 6 w (of_list [a; d; t; a; d + L * t; t]) -> dot 6 w (mulv 6 K v) == 0.
Proof.
  intros L K v w (SY & _ & RG & _) a d t E. rewrite (dot_mulv_ext K v _ _ E).
  rewrite (symmetric_work 6 K _ v SY). unfold dot. apply sum_zero. intros i Hi. rewrite RG by exact Hi. ring.
Qed.

(** Work of the soil on a rigid motion of the element: [d] is the lateral displacement of its top. *)
Lemma py_rigid : forall L kt kb v w a d t, veq 6 w (of_list [a; d; t; a; d + L * t; t]) ->
  dot 6 w (mulv 6 (elem_py L kt kb) v) == L * pint (pmul [d; L * t] (pmul (linear_k kt kb) (deflection L v))).
Proof.
  intros L kt kb v w a d t E. rewrite (dot_mulv_ext _ v _ _ E).
  unfold elem_py, deflection, linear_k, pint, pprim, of_list. unfold_mat. cbn. field.
Qed.

Lemma tz_rigid : forall L kt kb v w a d t, veq 6 w (of_list [a; d; t; a; d + L * t; t]) ->
  dot 6 w (mulv 6 (elem_tz L kt kb) v) == a * (L * pint (pmul (linear_k kt kb) (axial v))).
Proof.
  intros L kt kb v w a d t E. rewrite (dot_mulv_ext _ v _ _ E).
  unfold elem_tz, axial, linear_k, pint, pprim, of_list. unfold_mat. cbn. field.
Qed.

Lemma mt_shift : forall c kt kb v w a d, veq 6 w (of_list [a; d; 0; a; d; 0]) -> dot 6 w (mulv 6 (mt_matrix c kt kb) v) == 0.
Proof.
  intros [[[A B] C] D] kt kb v w a d E. rewrite (dot_mulv_ext _ v _ _ E). unfold mt_matrix, of_list. unfold_mat. ring.
Qed.

Lemma mt_eb_rigid : forall w1 ar l L kt kb v w a d t, ~ L == 0 -> veq 6 w (of_list [a; d; t; a; d + L * t; t]) ->
  dot 6 w (mulv 6 (mt_matrix (mt_coefs EulerBernoulli w1 ar l L) kt kb) v) == t * ((kt + kb) / 2 * pint (pderiv (deflection L v))).
Proof.
  intros w1 ar l L kt kb v w a d t HL E. rewrite (dot_mulv_ext _ v _ _ E).
  unfold mt_matrix, mt_coefs, deflection, pint, pprim, of_list. unfold_mat. cbn. field. exact HL.
Qed.

Lemma lateral_moment_split : forall L k v d t, L * pint (pmul [d; L * t] (pmul (linear_k (fst k) (snd k)) (deflection L v))) ==
  d * shaft_lateral L k v + t * (shaft_moment L 0 k v).
Proof. intros L [kt kb] v d t. unfold shaft_lateral, shaft_moment, deflection, linear_k, pint, pprim. cbn. field. Qed.

Lemma moment_shift : forall L d k v, shaft_moment L d k v == d * shaft_lateral L k v + shaft_moment L 0 k v.
Proof. intros L d [kt kb] v. unfold shaft_lateral, shaft_moment, deflection, linear_k, pint, pprim. cbn. field. Qed.

(** What the balance needs of a model: the mesh and elements that do not resist rigid motion. *)
Record sound_pile (M : wmodel) (z : nat -> Q) : Prop := {
  sp_len : forall e, (e < w_n M)%nat -> w_L M e = z e - z (S e) /\ 0 < w_L M e;
  sp_mech : forall e, (e < w_n M)%nat -> elem_deforms (w_L M e) (w_mech M e) }.
Lemma sound_model_pile : forall M z, sound_model M z -> sound_pile M z.
Proof. intros M z H. constructor; [exact (sm_len M z H)|exact (sm_mech M z H)]. Qed.

Section Balance.
Variables (M : wmodel) (z : nat -> Q) (u : vec) (k : kind) (K : mat).
Hypothesis SM : sound_pile M z.
Hypothesis HB : build M u k = Ok K.

Lemma balance_parts : exists kp kz km h m q, spring_values M u k kp kz km h m q /\
  forall V G, (forall i, (i < size M)%nat -> mulv (size M) K V i == G i) ->
    total_axial (w_n M) G == sum (w_n M) (fun e => when (w_tz M) (shaft_axial (w_L M e) (kz e) (elem_disp V e))) + q * V (3 * w_n M)%nat /\
    total_lateral (w_n M) G == sum (w_n M) (fun e => when (w_py M) (shaft_lateral (w_L M e) (kp e) (elem_disp V e))) + h * V (3 * w_n M + 1)%nat /\
    ((forall e, (e < w_n M)%nat -> w_mt M = None \/ exists w1 a l, w_mtc M e = mt_coefs EulerBernoulli w1 a l (w_L M e)) ->
     total_moment (w_n M) z G == sum (w_n M) (fun e => when (w_py M) (shaft_moment (w_L M e) (z O - z e) (kp e) (elem_disp V e)) +
         when (w_mt M) (shaft_rotation (w_L M e) (km e) (elem_disp V e)))
       + (z O - z (w_n M)) * (h * V (3 * w_n M + 1)%nat) + m * V (3 * w_n M + 2)%nat).
Proof using SM HB.
  destruct (build_parts M u k K HB) as (kp & kz & km & h & m & q & SV & W). exists kp, kz, km, h, m, q. split; [exact SV|].
  intros V G EG.
  assert (B : forall a v t, a * total_axial (w_n M) G + v * total_lateral (w_n M) G + t * total_moment (w_n M) z G ==
    sum (w_n M) (fun e => soil_work M kp kz km V (rigid z a v t) e)
    + h * V (3 * w_n M + 1)%nat * (v + t * (z O - z (w_n M))) + m * V (3 * w_n M + 2)%nat * t + q * V (3 * w_n M)%nat * a).
  { intros a v t. rewrite <- dot_rigid. change (3 * w_n M + 3)%nat with (size M).
    transitivity (dot (size M) (rigid z a v t) (mulv (size M) K V)).
    { apply dot_ext; intros i Hi; [reflexivity|symmetry; apply EG; exact Hi]. }
    rewrite W. destruct (rigid_at z a v t (w_n M)) as (-> & -> & ->).
    do 3 (apply Qplus_comp; [|reflexivity]). apply sum_ext. intros e He.
    destruct (sp_len M z SM e He) as [HL _].
    rewrite (mech_silent (w_L M e) (w_mech M e) _ _ (sp_mech M z SM e He) a (v + t * (z O - z e)) t); [ring|].
    rewrite HL. apply rigid_elem. }
  assert (RG : forall a v t e, (e < w_n M)%nat -> veq 6 (elem_disp (rigid z a v t) e)
      (of_list [a; v + t * (z O - z e); t; a; (v + t * (z O - z e)) + w_L M e * t; t])).
  { intros a v t e He. destruct (sp_len M z SM e He) as [HL _]. rewrite HL. apply rigid_elem. }
  assert (SH : forall a v e, (e < w_n M)%nat -> veq 6 (elem_disp (rigid z a v 0) e) (of_list [a; v; 0; a; v; 0])).
  { intros a v e He i Hi. rewrite (RG a v 0 e He i Hi). unfold of_list. do 6 (destruct i as [|i]; [cbn [nth]; ring|]). lia. }
  split; [|split].
  - transitivity (1 * total_axial (w_n M) G + 0 * total_lateral (w_n M) G + 0 * total_moment (w_n M) z G); [ring|]. rewrite B.
    match goal with |- ?s + _ + _ + _ == ?s' + _ => assert (ES : s == s') end.
    { apply sum_ext. intros e He. unfold soil_work, when, shaft_axial.
      destruct (w_py M), (w_tz M), (w_mt M); rewrite ?(py_rigid _ _ _ _ _ _ _ _ (RG 1 0 0 e He)), ?(tz_rigid _ _ _ _ _ _ _ _ (RG 1 0 0 e He)), ?(mt_shift _ _ _ _ _ _ _ (SH 1 0 e He)); rewrite ?lateral_moment_split; ring. }
    rewrite ES. ring.
  - transitivity (0 * total_axial (w_n M) G + 1 * total_lateral (w_n M) G + 0 * total_moment (w_n M) z G); [ring|]. rewrite B.
    match goal with |- ?s + _ + _ + _ == ?s' + _ => assert (ES : s == s') end.
    { apply sum_ext. intros e He. unfold soil_work, when.
      destruct (w_py M), (w_tz M), (w_mt M); rewrite ?(py_rigid _ _ _ _ _ _ _ _ (RG 0 1 0 e He)), ?(tz_rigid _ _ _ _ _ _ _ _ (RG 0 1 0 e He)), ?(mt_shift _ _ _ _ _ _ _ (SH 0 1 e He)); rewrite ?lateral_moment_split; ring. }
    rewrite ES. ring.
  - intros EB. transitivity (0 * total_axial (w_n M) G + 0 * total_lateral (w_n M) G + 1 * total_moment (w_n M) z G); [ring|]. rewrite B.
    match goal with |- ?s + _ + _ + _ == ?s' + _ + _ => assert (ES : s == s') end.
    { apply sum_ext. intros e He. unfold soil_work, when. pose proof (moment_shift (w_L M e) (z O - z e) (kp e) (elem_disp V e)) as MS.
      destruct (sp_len M z SM e He) as [_ HL].
      assert (MT : match w_mt M with None => 0 | Some _ => dot 6 (elem_disp (rigid z 0 0 1) e) (mulv 6 (mt_matrix (w_mtc M e) (fst (km e)) (snd (km e))) (elem_disp V e)) end
                   == match w_mt M with None => 0 | Some _ => shaft_rotation (w_L M e) (km e) (elem_disp V e) end).
      { destruct (EB e He) as [->|(w1 & a & l & E)]; [reflexivity|]. destruct (w_mt M); [|reflexivity]. rewrite E.
        rewrite (mt_eb_rigid w1 a l (w_L M e) _ _ (elem_disp V e) _ _ _ _ ltac:(intros X; rewrite X in HL; apply (Qlt_irrefl 0); exact HL) (RG 0 0 1 e He)).
        unfold shaft_rotation. ring. }
      rewrite MT.
      destruct (w_py M), (w_tz M); rewrite ?(py_rigid _ _ _ _ _ _ _ _ (RG 0 0 1 e He)), ?(tz_rigid _ _ _ _ _ _ _ _ (RG 0 0 1 e He)); rewrite ?lateral_moment_split, ?MS; ring. }
    rewrite ES. ring.
Qed.
End Balance.
