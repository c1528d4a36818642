(** States of rest: uniqueness with base springs, two of them with springs along the pile, and more
    resistance than the curves have. *)
From Coq Require Import List Bool Arith ZArith QArith Qabs Lia Lqa Setoid.
From Verif Require Import Base LinAlg PileModel BeamModel BeamSpec BeamProofs SolveModel SolveSpec SolveProofs ForceProofs SpringModel SpringSpec SpringProofs SoilProofs SpringProper SpringWitness WinklerModel WinklerSpec WinklerProofs WinklerProps BalanceSpec BalanceProofs BareModel BareSpec BareProofs EquilSpec.
Import ListNotations.
Local Open Scope Q_scope.

(** What the program iterates towards: secant springs of the displacements balance the loads. *)
Definition balanced (M : wmodel) (F U0 : vec) (r : nat -> bool) (V : vec) : Prop :=
  exists K, build M V Secant = Ok K /\ (forall i, (i < size M)%nat -> r i = true -> V i == U0 i) /\
    (forall i, (i < size M)%nat -> r i = false -> mulv (size M) K V i == F i).

Lemma lateral_nonempty : forall c : list (Q * Q), (2 <= length c)%nat -> c <> [].
Proof. intros [|] H; cbn in H; [lia|discriminate]. Qed.

(** ** Monotone springs *)
Lemma resists_mono : forall o u f u' f', (forall c, o = Some c -> lateral_curve c) -> resists o u f -> resists o u' f' -> 0 <= (u - u') * (f - f').
Proof.
  intros o u f u' f' G H H'. destruct o as [c|]; cbn in H, H'; [|rewrite H, H'; lra].
  destruct (G c eq_refl) as (L & ST & HD & OR). pose proof (lateral_nonempty c L) as NE.
  destruct H as (p & OC & A & B). destruct H' as (p' & OC' & A' & B').
  assert (E : forall d q, on_curve c d q -> q == interp d c) by (intros d q X; apply (on_curve_unique c d); auto using interp_on_curve, strict_ordered).
  apply E in OC. apply E in OC'.
  assert (MN : forall d d', d <= d' -> interp d c <= interp d' c) by (intros; apply interp_mono; auto using strict_ordered).
  assert (Z : interp 0 c == 0).
  { destruct OR as [O1 O2]. transitivity (interp (fst (point c 0)) c); [apply interp_comp; [symmetry; exact O1|apply qp_list_refl]|].
    rewrite (interp_at_point c 0 ST) by lia. exact O2. }
  pose proof (MN 0 (Qabs u) (Qabs_nonneg u)) as P. pose proof (MN 0 (Qabs u') (Qabs_nonneg u')) as P'. rewrite Z, <- OC in P. rewrite Z, <- OC' in P'.
  assert (CMP : Qabs u <= Qabs u' -> p <= p') by (intros X; rewrite OC, OC'; auto).
  assert (CMP' : Qabs u' <= Qabs u -> p' <= p) by (intros X; rewrite OC, OC'; auto).
  clear OC OC' MN E.
  assert (PR : forall a b, (0 <= a /\ 0 <= b) \/ (a <= 0 /\ b <= 0) -> 0 <= a * b).
  { intros a b [[X Y]|[X Y]]; [apply mul_nonneg; auto|]. setoid_replace (a * b) with ((- a) * (- b)) by ring. apply mul_nonneg; lra. }
  apply PR. destruct (Qlt_le_dec u 0) as [U|U]; destruct (Qlt_le_dec u' 0) as [U'|U'].
  - rewrite (Qabs_neg u), (Qabs_neg u') in * by lra. rewrite B, B' by lra.
    destruct (Qlt_le_dec u u'); [right|left]; (split; [lra|]); [assert (p' <= p) by (apply CMP'; lra)|assert (p <= p') by (apply CMP; lra)]; lra.
  - rewrite B by lra. rewrite A' by lra. right. lra.
  - rewrite A by lra. rewrite B' by lra. left. lra.
  - rewrite (Qabs_pos u), (Qabs_pos u') in * by lra. rewrite A, A' by lra.
    destruct (Qlt_le_dec u u'); [right|left]; (split; [lra|]); [assert (p <= p') by (apply CMP; lra)|assert (p' <= p) by (apply CMP'; lra)]; lra.
Qed.

Lemma resists_axially_mono : forall o u f u' f', (forall c, o = Some c -> axial_curve (zero_index (length c)) c) -> resists_axially o u f -> resists_axially o u' f' -> 0 <= (u - u') * (f - f').
Proof.
  intros o u f u' f' G H H'. destruct o as [c|]; cbn in H, H'; [|rewrite H, H'; lra].
  destruct (G c eq_refl) as (ST & HD & L & OR).
  assert (NE : rev c <> []) by (intros X; apply (f_equal (@length _)) in X; rewrite rev_length in X; cbn in X; lia).
  assert (E : forall d q, on_curve (rev c) d q -> q == interp d (rev c)) by (intros d q X; apply (on_curve_unique (rev c) d); auto using interp_on_curve, strict_ordered).
  apply E in H. apply E in H'.
  assert (MN : forall d d', d <= d' -> interp d (rev c) <= interp d' (rev c)) by (intros; apply interp_mono; auto using strict_ordered).
  assert (PR : forall a b, (0 <= a /\ 0 <= b) \/ (a <= 0 /\ b <= 0) -> 0 <= a * b).
  { intros a b [[X Y]|[X Y]]; [apply mul_nonneg; auto|]. setoid_replace (a * b) with ((- a) * (- b)) by ring. apply mul_nonneg; lra. }
  apply PR. destruct (Qlt_le_dec u u') as [U|U]; [right|left]; (split; [lra|]).
  - assert (f <= f') by (rewrite H, H'; apply MN; lra). lra.
  - assert (f' <= f) by (rewrite H, H'; apply MN; lra). lra.
Qed.

(** ** What the program's springs resist *)
Lemma base_resists : forall c u k, lateral_curve c -> base_spring u c Secant = Ok k -> resists (Some c) u (k * u).
Proof.
  intros c u k (L & ST & HD & OR) H. destruct (base_secant u c L ST HD OR) as (k' & p & E & OC & KP & _). rewrite H in E. apply ok_inj in E. subst k'.
  exists p. split; [exact OC|]. split; intros U.
  - rewrite <- KP, Qabs_pos by lra. reflexivity.
  - rewrite <- KP, Qabs_neg by lra. ring.
Qed.

Lemma base_axial_resists : forall c u k, axial_curve (zero_index (length c)) c -> base_axial_spring u c Secant = Ok k -> resists_axially (Some c) u (k * u).
Proof.
  intros c u k (ST & HD & L & OR) H. destruct (base_axial_secant u c ST HD L OR) as (k' & p & E & OC & KP & _). rewrite H in E. apply ok_inj in E. subst k'.
  cbn. revert OC. unfold on_curve. intros OC.
  assert (X : forall y, k * u - y == p - y) by (intros y; rewrite KP; reflexivity).
  destruct OC as [(j & A & B & C & D & F)|[[A B]|[A B]]].
  - left. exists j. rewrite X. auto.
  - right; left. rewrite KP. auto.
  - right; right. rewrite KP. auto.
Qed.

Definition base_only (M : wmodel) : Prop := w_py M = None /\ w_tz M = None /\ w_mt M = None.
Definition base_curves (M : wmodel) : Prop :=
  (forall c, w_qz M = Some c -> axial_curve (zero_index (length c)) c) /\ (forall c, w_hb M = Some c -> lateral_curve c) /\ (forall c, w_mb M = Some c -> lateral_curve c).

Lemma base_build : forall M u k K, base_only M -> build M u k = Ok K -> exists q h m,
  match w_qz M with None => q = 0 | Some c => base_axial_spring (u (3 * w_n M)%nat) c k = Ok q end /\
  match w_hb M with None => h = 0 | Some c => base_spring (u (3 * w_n M + 1)%nat) c k = Ok h end /\
  match w_mb M with None => m = 0 | Some c => base_spring (u (3 * w_n M + 2)%nat) c k = Ok m end /\
  forall v i, mulv (size M) K v i == mulv (size M) (jit_build (w_n M) (w_mech M)) v i + spring_force (w_n M) q h m v i.
Proof.
  intros M u k K (E1 & E2 & E3) H. unfold build, soil_elements in H. rewrite E1, E2, E3 in H. cbn [opt_res bind] in H.
  destruct (add_base M 2 _ _ _ _ _) as [K1|] eqn:B1; cbn [bind] in H; [|discriminate].
  destruct (add_base M 1 _ _ _ _ _) as [K2|] eqn:B2; cbn [bind] in H; [|discriminate].
  destruct (add_base_ok _ _ _ _ _ _ _ _ B1) as (h & C1). destruct (add_base_ok _ _ _ _ _ _ _ _ B2) as (m & C2).
  destruct (add_base_ok _ _ _ _ _ _ _ _ H) as (q & C3). clear B1 B2 H.
  exists q, h, m.
  assert (S1 : (size M - 1 = 3 * w_n M + 2)%nat) by (unfold size; lia). assert (S2 : (size M - 2 = 3 * w_n M + 1)%nat) by (unfold size; lia).
  assert (S3 : (size M - 3 = 3 * w_n M)%nat) by (unfold size; lia).
  split; [destruct (w_qz M); [rewrite <- S3|]; tauto|]. split; [destruct (w_hb M); [rewrite <- S2|]; tauto|]. split; [destruct (w_mb M); [rewrite <- S1|]; tauto|].
  intros v i. rewrite (base_step M 3 _ _ _ _ _ C3 ltac:(lia) ltac:(lia)), (base_step M 1 _ _ _ _ _ C2 ltac:(lia) ltac:(lia)), (base_step M 2 _ _ _ _ _ C1 ltac:(lia) ltac:(lia)).
  rewrite S1, S2, S3. unfold spring_force.
  destruct (Nat.eqb_spec i (3 * w_n M)) as [->|N1].
  - destruct (Nat.eqb_spec (3 * w_n M) (3 * w_n M + 2)); [lia|]. destruct (Nat.eqb_spec (3 * w_n M) (3 * w_n M + 1)); [lia|]. ring.
  - destruct (Nat.eqb_spec i (3 * w_n M + 1)) as [->|N2].
    + destruct (Nat.eqb_spec (3 * w_n M + 1) (3 * w_n M + 2)); [lia|]. ring.
    + destruct (Nat.eqb_spec i (3 * w_n M + 2)) as [->|N3]; ring.
Qed.

Lemma balanced_at_rest : forall M F U0 r V, base_only M -> base_curves M -> balanced M F U0 r V ->
  at_rest (w_n M) (jit_build (w_n M) (w_mech M)) (w_qz M) (w_hb M) (w_mb M) F U0 r V.
Proof.
  intros M F U0 r V BO (GQ & GH & GM) (K & B & S1 & S2). split; [exact S1|].
  destruct (base_build M V Secant K BO B) as (q & h & m & Q1 & H1 & M1 & E).
  exists (q * V (3 * w_n M)%nat), (h * V (3 * w_n M + 1)%nat), (m * V (3 * w_n M + 2)%nat).
  split. { destruct (w_qz M) as [c|]; [apply base_axial_resists; auto|cbn; rewrite Q1; ring]. }
  split. { destruct (w_hb M) as [c|]; [apply base_resists; auto|cbn; rewrite H1; ring]. }
  split. { destruct (w_mb M) as [c|]; [apply base_resists; auto|cbn; rewrite M1; ring]. }
  intros i Hi Ri. rewrite <- (S2 i Hi Ri), E. unfold size, spring_force. apply Qplus_comp; [reflexivity|].
  destruct (Nat.eqb_spec i (3 * w_n M)) as [->|N1]; [reflexivity|]. destruct (Nat.eqb_spec i (3 * w_n M + 1)) as [->|N2]; [reflexivity|].
  destruct (Nat.eqb_spec i (3 * w_n M + 2)) as [->|N3]; reflexivity.
Qed.

(** ** Uniqueness *)
Section Unique.
Variables (n : nat) (k : nat -> mat) (z : nat -> Q) (qz hb mb : option (list (Q * Q))) (F U0 : vec) (r : nat -> bool).
Hypothesis DF : forall e, (e < n)%nat -> elem_deforms (z e - z (S e)) (k e).
Hypothesis DW : forall e, (e < n)%nat -> z (S e) < z e.
Hypothesis GQ : forall c, qz = Some c -> axial_curve (zero_index (length c)) c.
Hypothesis GH : forall c, hb = Some c -> lateral_curve c.
Hypothesis GM : forall c, mb = Some c -> lateral_curve c.
Let N := (3 * n + 3)%nat.
Let K := jit_build n k.

Lemma rest_energy : forall F' V V', at_rest n K qz hb mb F U0 r V -> at_rest n K qz hb mb F' U0 r V' ->
  energy N K (fun i => V i - V' i) <= dot N (fun i => V i - V' i) (fun i => if r i then 0 else F i - F' i).
Proof using DF GQ GH GM.
  intros F' V V' (S1 & fq & fh & fm & RQ & RH & RM & E) (S1' & fq' & fh' & fm' & RQ' & RH' & RM' & E').
  set (W := fun i => V i - V' i).
  assert (MV : forall i, mulv N K W i == mulv N K V i - mulv N K V' i).
  { intros i. unfold mulv, W. rewrite <- sum_minus. apply sum_ext. intros j Hj. ring. }
  assert (X : energy N K W + sum N (fun i => if r i then 0 else
        (if Nat.eqb i (3 * n) then W i * (fq - fq') else if Nat.eqb i (3 * n + 1) then W i * (fh - fh') else if Nat.eqb i (3 * n + 2) then W i * (fm - fm') else 0)) ==
        dot N W (fun i => if r i then 0 else F i - F' i)).
  { unfold energy, dot. rewrite <- sum_plus. apply sum_ext. intros i Hi. destruct (r i) eqn:Ri.
    - unfold W. rewrite (S1 i Hi Ri), (S1' i Hi Ri). ring.
    - rewrite MV. specialize (E i Hi Ri). specialize (E' i Hi Ri). unfold N.
      destruct (Nat.eqb i (3 * n)); [|destruct (Nat.eqb i (3 * n + 1)); [|destruct (Nat.eqb i (3 * n + 2))]]; rewrite <- E, <- E'; ring. }
  assert (Y : 0 <= sum N (fun i => if r i then 0 else
      (if Nat.eqb i (3 * n) then W i * (fq - fq') else if Nat.eqb i (3 * n + 1) then W i * (fh - fh') else if Nat.eqb i (3 * n + 2) then W i * (fm - fm') else 0))).
  { apply sum_nonneg. intros i Hi. destruct (r i); [lra|].
    destruct (Nat.eqb_spec i (3 * n)) as [->|]; [exact (resists_axially_mono _ _ _ _ _ GQ RQ RQ')|].
    destruct (Nat.eqb_spec i (3 * n + 1)) as [->|]; [exact (resists_mono _ _ _ _ _ GH RH RH')|].
    destruct (Nat.eqb_spec i (3 * n + 2)) as [->|]; [exact (resists_mono _ _ _ _ _ GM RM RM')|lra]. }
  lra.
Qed.

Lemma rest_same_energy : forall V V', at_rest n K qz hb mb F U0 r V -> at_rest n K qz hb mb F U0 r V' -> energy N K (fun i => V i - V' i) == 0.
Proof using DF GQ GH GM.
  intros V V' A B. pose proof (rest_energy F V V' A B) as E.
  assert (P : 0 <= energy N K (fun i => V i - V' i)) by (apply build_psd; intros e He; apply (DF e He)).
  assert (Z : dot N (fun i => V i - V' i) (fun i => if r i then 0 else F i - F i) == 0) by (apply sum_zero; intros i Hi; destruct (r i); ring).
  lra.
Qed.

Lemma rest_rigid : forall V V', at_rest n K qz hb mb F U0 r V -> at_rest n K qz hb mb F U0 r V' ->
  exists a d t, forall i, (i < N)%nat -> V i == V' i + rigid z a d t i.
Proof using DF DW GQ GH GM.
  intros V V' A B. pose proof (rest_same_energy V V' A B) as E. pose proof (undeformed_rigid n k z DF _ E) as UR.
  eexists _, _, _. intros i Hi. destruct (dof_cases n i Hi) as (a & c & Ha & Hc & ->). rewrite ForceProofs.rigid_at by auto.
  destruct (UR a Ha) as (X & Y & Z). destruct c as [|[|[|]]]; try lia; [rewrite Nat.add_0_r| |].
  - setoid_replace (V (3 * a)%nat) with (V' (3 * a)%nat + (V (3 * a)%nat - V' (3 * a)%nat)) by ring. rewrite X. reflexivity.
  - setoid_replace (V (3 * a + 1)%nat) with (V' (3 * a + 1)%nat + (V (3 * a + 1)%nat - V' (3 * a + 1)%nat)) by ring. rewrite Y. reflexivity.
  - setoid_replace (V (3 * a + 2)%nat) with (V' (3 * a + 2)%nat + (V (3 * a + 2)%nat - V' (3 * a + 2)%nat)) by ring. rewrite Z. reflexivity.
Qed.

Lemma rest_unique : forall V V', held n r -> at_rest n K qz hb mb F U0 r V -> at_rest n K qz hb mb F U0 r V' -> veq N V V'.
Proof using DF DW GQ GH GM.
  intros V V' HL A B i Hi. pose proof (rest_same_energy V V' A B) as E.
  assert (X : forall j, (j < N)%nat -> V j - V' j == 0).
  { apply (held_rigid_zero n k z r DF DW HL _); [|exact E]. intros j Hj Rj. rewrite (proj1 A j Hj Rj), (proj1 B j Hj Rj). ring. }
  specialize (X i Hi). lra.
Qed.
End Unique.

(** ** How much the soil resists *)
Definition ultimate (c : list (Q * Q)) : Q := snd (point c (length c - 1)).

Lemma elem_translation : forall L k v w, v 1%nat == w -> v 2%nat == 0 -> v 4%nat == w -> v 5%nat == 0 -> shaft_lateral L k v == L * (fst k + snd k) / 2 * w.
Proof.
  intros L [kt kb] v w E1 E2 E4 E5. unfold shaft_lateral, deflection, linear_k, pint, pprim. cbn. rewrite E1, E2, E4, E5. field.
Qed.

Lemma uniform_secant : forall u v c k, lateral_curve c -> u == v -> py_spring u c Secant = Ok k \/ base_spring u c Secant = Ok k ->
  exists p, on_curve c (Qabs v) p /\ k * Qabs v == p /\ 0 <= k /\ 0 <= p /\ p <= ultimate c.
Proof.
  intros u v c k (L & ST & HD & OR) E H.
  assert (EX : exists k' p, Ok k = Ok k' /\ on_curve c (Qabs u) p /\ k' * Qabs u == p /\ 0 <= k' /\ 0 <= p /\ p <= snd (point c (length c - 1))).
  { destruct H as [H|H]; rewrite <- H; [exact (py_secant u c L ST HD OR)|exact (base_secant u c L ST HD OR)]. }
  destruct EX as (k' & p & EK & OC & KP & K0 & P0 & PU). apply ok_inj in EK. subst k'. exists (k * Qabs v).
  assert (AE : Qabs u == Qabs v) by (rewrite E; reflexivity).
  split; [|split; [reflexivity|split; [exact K0|split; [rewrite <- AE, KP; exact P0|rewrite <- AE, KP; exact PU]]]].
  assert (X : k * Qabs v == p) by (rewrite <- AE; exact KP). unfold on_curve in *.
  destruct OC as [(j & A & B & C & D & F)|[[A B]|[A B]]].
  - left. exists j. rewrite <- !AE, KP. auto.
  - right; left. rewrite X, <- AE. auto.
  - right; right. rewrite X, <- AE. auto.
Qed.

Section Translation.
Variables (M : wmodel) (z : nat -> Q) (V : vec) (K : mat) (v : Q) (py : nat -> nat -> curve).
Hypothesis SP : sound_pile M z.
Hypothesis EP : w_py M = Some py.
Hypothesis GP : forall e j, (e < w_n M)%nat -> (j < 2)%nat -> lateral_curve (py e j).
Hypothesis GH : forall c, w_hb M = Some c -> lateral_curve c.
Hypothesis HB : build M V Secant = Ok K.
Hypothesis TR : forall a, (a <= w_n M)%nat -> V (3 * a + 1)%nat == v /\ V (3 * a + 2)%nat == 0.

Lemma translation_resistance : exists p ph, (forall e j, (e < w_n M)%nat -> (j < 2)%nat -> on_curve (py e j) (Qabs v) (p e j) /\ 0 <= p e j /\ p e j <= ultimate (py e j)) /\
  match w_hb M with None => ph == 0 | Some c => on_curve c (Qabs v) ph /\ 0 <= ph /\ ph <= ultimate c end /\
  forall G, (forall i, (i < size M)%nat -> mulv (size M) K V i == G i) ->
    Qabs (total_lateral (w_n M) G) == sum (w_n M) (fun e => w_L M e * (p e 0%nat + p e 1%nat) / 2) + ph.
Proof using SP EP GP GH HB TR.
  destruct (balance_parts M z V Secant K SP HB) as (kp & kz & km & h & m & q & (SV & _ & _ & VH & _) & B).
  assert (SD : forall e j, (e < w_n M)%nat -> (j < 2)%nat -> spring_disp (w_n M) V 1 e j == v).
  { intros e j He Hj. rewrite spring_disp_node by auto. apply TR. unfold spring_node. destruct (_ && _)%bool; lia. }
  assert (KP : forall e, (e < w_n M)%nat -> forall j, (j < 2)%nat -> let k := match j with O => fst (kp e) | _ => snd (kp e) end in
    on_curve (py e j) (Qabs v) (k * Qabs v) /\ 0 <= k /\ 0 <= k * Qabs v /\ k * Qabs v <= ultimate (py e j)).
  { intros e He j Hj k. destruct (SV py EP e He) as [A0 A1].
    assert (Ak : py_spring (spring_disp (w_n M) V 1 e j) (py e j) Secant = Ok k) by (destruct j as [|[|]]; [exact A0|exact A1|lia]).
    destruct (uniform_secant _ v _ k (GP e j He Hj) (SD e j He Hj) (or_introl Ak)) as (p & OC & E & K0 & P0 & PU).
    split; [|rewrite E; auto]. unfold on_curve in *.
    destruct OC as [(i & A & B' & C & D & F)|[[A B']|[A B']]]; [left; exists i; rewrite E; auto|right; left; rewrite E; auto|right; right; rewrite E; auto]. }
  set (p := fun e j => match j with O => fst (kp e) | _ => snd (kp e) end * Qabs v).
  assert (PH : 0 <= h /\ match w_hb M with None => h * Qabs v == 0 | Some c => on_curve c (Qabs v) (h * Qabs v) /\ 0 <= h * Qabs v /\ h * Qabs v <= ultimate c end).
  { destruct (w_hb M) as [c|]; [|subst h; split; [lra|ring]].
    destruct (uniform_secant _ v c h (GH c eq_refl) (proj1 (TR (w_n M) ltac:(lia))) (or_intror VH)) as (ph & OC & E & K0 & P0 & PU).
    split; [exact K0|]. split; [|rewrite E; auto]. unfold on_curve in *.
    destruct OC as [(i & A & B' & C & D & F)|[[A B']|[A B']]]; [left; exists i; rewrite E; auto|right; left; rewrite E; auto|right; right; rewrite E; auto]. }
  destruct PH as [H0 PH].
  exists p, (h * Qabs v). split; [intros e j He Hj; destruct (KP e He j Hj) as (A & _ & C & D); auto|]. split; [exact PH|].
  intros G EG. destruct (B V G EG) as (_ & BL & _). rewrite BL, EP. cbn [BalanceSpec.when].
  assert (S1 : sum (w_n M) (fun e => shaft_lateral (w_L M e) (kp e) (elem_disp V e)) == sum (w_n M) (fun e => w_L M e * (fst (kp e) + snd (kp e)) / 2) * v).
  { rewrite <- sum_scale_r. apply sum_ext. intros e He. apply elem_translation; unfold elem_disp.
    - exact (proj1 (TR e ltac:(lia))).
    - exact (proj2 (TR e ltac:(lia))).
    - replace (3 * e + 4)%nat with (3 * S e + 1)%nat by lia. exact (proj1 (TR (S e) ltac:(lia))).
    - replace (3 * e + 5)%nat with (3 * S e + 2)%nat by lia. exact (proj2 (TR (S e) ltac:(lia))). }
  rewrite S1, (proj1 (TR (w_n M) ltac:(lia))).
  assert (S0 : 0 <= sum (w_n M) (fun e => w_L M e * (fst (kp e) + snd (kp e)) / 2)).
  { apply sum_nonneg. intros e He. destruct (KP e He 0%nat ltac:(lia)) as (_ & A & _). destruct (KP e He 1%nat ltac:(lia)) as (_ & A' & _). change (0 <= fst (kp e)) in A. change (0 <= snd (kp e)) in A'.
    destruct (sp_len M z SP e He) as [_ LP]. unfold Qdiv. apply mul_nonneg; [apply mul_nonneg; lra|discriminate]. }
  setoid_replace (sum (w_n M) (fun e => w_L M e * (fst (kp e) + snd (kp e)) / 2) * v + h * v) with ((sum (w_n M) (fun e => w_L M e * (fst (kp e) + snd (kp e)) / 2) + h) * v) by ring.
  rewrite Qabs_Qmult, (Qabs_pos (_ + h)) by lra.
  transitivity (sum (w_n M) (fun e => w_L M e * (fst (kp e) + snd (kp e)) / 2) * Qabs v + h * Qabs v); [ring|].
  apply Qplus_comp; [|reflexivity]. rewrite <- sum_scale_r. apply sum_ext. intros e He. unfold p. field.
Qed.
End Translation.

(** Linear deflection from [u1] to [u2] over the element *)
Definition tilted (L u1 u2 : Q) : vec := of_list [0; u1; (u2 - u1) / L; 0; u2; (u2 - u1) / L].

Lemma tilted_resistance : forall L kt kb u1 u2, ~ L == 0 -> shaft_lateral L (kt, kb) (tilted L u1 u2) == L * ((kt * u1 + kb * u2) / 3 + (kt * u2 + kb * u1) / 6).
Proof. intros L kt kb u1 u2 NZ. unfold shaft_lateral, deflection, linear_k, pint, pprim, tilted, of_list. cbn. field. exact NZ. Qed.

Lemma tilted_excess : forall L p kt kb u1 u2, 0 < L -> 0 < u1 -> 0 < u2 -> kt * u1 == p -> kb * u2 == p ->
  shaft_lateral L (kt, kb) (tilted L u1 u2) == L * p + L * p * ((u2 - u1) * (u2 - u1)) / (6 * u1 * u2).
Proof.
  intros L p kt kb u1 u2 HL H1 H2 E1 E2. rewrite tilted_resistance by lra.
  assert (K1 : kt == p / u1) by (rewrite <- E1; field; lra). assert (K2 : kb == p / u2) by (rewrite <- E2; field; lra).
  rewrite K1, K2. field. split; lra.
Qed.

Lemma beyond_ultimate : forall u c, lateral_curve c -> 0 <= u -> fst (point c (length c - 1)) <= u -> exists k, py_spring u c Secant = Ok k /\ k * u == ultimate c.
Proof.
  intros u c (L & ST & HD & OR) U0 U. destruct (py_secant u c L ST HD OR) as (k & p & E & OC & KP & _). exists k. split; [exact E|].
  assert (X : p == ultimate c).
  { apply (on_curve_unique c (Qabs u)); auto using lateral_nonempty. right; right. rewrite (Qabs_pos u U0). split; [exact U|reflexivity]. }
  rewrite <- X, <- KP, (Qabs_pos u U0). reflexivity.
Qed.
