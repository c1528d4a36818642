From Coq Require Import List Bool Arith ZArith QArith Qabs Qminmax Qpower Lia Lqa.
From Verif Require Import Base LinAlg GetterModel.
Import ListNotations.
Local Open Scope Q_scope.

(** number of calls that touch the springs of [g] *)
Definition touches (g : getter) (c : getter * layout) : nat :=
  match c with
  | (Axial, Lumped) | (Axial, Distributed) => match g with Axial => 1 | _ => 0 end
  | (Lateral, Lumped) | (Lateral, Distributed) => match g with Lateral => 1 | _ => 0 end
  | _ => 0
  end%nat.
Fixpoint touched (g : getter) (l : list (getter * layout)) : nat := match l with [] => 0 | c :: t => touches g c + touched g t end.

Fixpoint qpow (x : Q) (k : nat) : Q := match k with O => 1 | S m => x * qpow x m end.

Lemma qpow_add : forall x a b, qpow x (a + b) == qpow x a * qpow x b.
Proof. intros x a b. induction a as [|a IH]; cbn [qpow Nat.add]; [ring|]. rewrite IH. ring. Qed.

(** half the lengths of the elements at a node *)
Definition tributary (n : nat) (z : nat -> Q) (i : nat) : Q :=
  (if Nat.eqb i 0 then 0 else (z (i - 1)%nat - z i) / 2) + (if Nat.eqb i n then 0 else (z i - z (S i)) / 2).

Section Mesh.
Variables (n : nat) (z : nat -> Q).
Hypothesis Hn : (1 <= n)%nat.
Hypothesis Hz : forall e, (e < n)%nat -> z (S e) < z e.

Lemma influence_tributary : forall i, (i <= n)%nat -> influence n z i == tributary n z i.
Proof.
  intros i Hi. unfold influence, tributary, gradient. destruct (Nat.eqb_spec i 0) as [->|N0].
  - replace (0 =? n)%nat with false by (symmetry; apply Nat.eqb_neq; lia). pose proof (Hz 0 ltac:(lia)).
    rewrite Qabs_neg by lra. field.
  - destruct (Nat.eqb_spec i n) as [->|NN].
    + pose proof (Hz (n - 1)%nat ltac:(lia)) as H. replace (S (n - 1)) with n in H by lia. rewrite Qabs_neg by lra. field.
    + pose proof (Hz (i - 1)%nat ltac:(lia)) as H. replace (S (i - 1)) with i in H by lia. pose proof (Hz i ltac:(lia)).
      rewrite Qabs_neg; [field|]. unfold Qdiv. change (/ 2) with (1#2). lra.
Qed.

Lemma influence_pos : forall i, (i <= n)%nat -> 0 < influence n z i.
Proof.
  intros i Hi. rewrite (influence_tributary i Hi). unfold tributary, Qdiv. change (/ 2) with (1#2). destruct (Nat.eqb_spec i 0) as [->|N0].
  - replace (0 =? n)%nat with false by (symmetry; apply Nat.eqb_neq; lia). pose proof (Hz 0 ltac:(lia)). lra.
  - pose proof (Hz (i - 1)%nat ltac:(lia)) as H. replace (S (i - 1)) with i in H by lia.
    destruct (Nat.eqb_spec i n) as [->|NN]; [lra|]. pose proof (Hz i ltac:(lia)). lra.
Qed.
End Mesh.

Definition node_of (e j : nat) : nat := if Nat.eqb j 0 then e else S e.

Definition part (g : getter) (s : spring_state) : springs := match g with Axial => g_tz s | _ => g_py s end.

Lemma calls_scale : forall n dim z l s e j v,
  (s_p (g_py (snd (calls n dim z l s))) e j v == s_p (g_py s) e j v * qpow (influence n z (node_of e j)) (touched Lateral l)) /\
  (s_p (g_tz (snd (calls n dim z l s))) e j v == s_p (g_tz s) e j v * qpow (influence n z (node_of e j)) (touched Axial l)) /\
  s_y (g_py (snd (calls n dim z l s))) = s_y (g_py s) /\ s_y (g_tz (snd (calls n dim z l s))) = s_y (g_tz s) /\
  g_mt (snd (calls n dim z l s)) = g_mt s.
Proof.
  intros n dim z l. induction l as [|[g k] t IH]; intros s e j v.
  - cbn [calls snd touched qpow]. split; [ring|]. split; [ring|]. auto.
  - cbn [calls]. destruct (call n dim z g k s) as [r s1] eqn:C. specialize (IH s1 e j v).
    destruct (calls n dim z t s1) as [rs s2]. cbn [snd touched] in *. destruct IH as (A & B & D & E & G).
    rewrite A, B, D, E, G. unfold node_of.
    destruct k, g; cbn in C; injection C as <- <-; cbn [g_py g_tz g_mt s_p s_y weighted touches Nat.add qpow];
      (split; [try ring|split; [try ring|auto]]).
Qed.

(** Unchanged springs *)
Lemma qpow_one : forall x k, 0 < x -> (1 <= k)%nat -> qpow x k == 1 -> x == 1.
Proof.
  assert (L : forall x k, 1 <= x -> 1 <= qpow x k).
  { intros x k H. induction k as [|k IH]; cbn [qpow]; [lra|]. setoid_replace 1 with (1 * 1) at 1 by ring.
    apply Qle_trans with (x * 1); [lra|]. rewrite !(Qmult_comm x). apply Qmult_le_compat_r; lra. }
  assert (U : forall x k, 0 < x -> x <= 1 -> 0 < qpow x k /\ qpow x k <= 1).
  { intros x k H0 H1. induction k as [|k [P IH]]; cbn [qpow]; [lra|]. split.
    - apply Qmult_lt_0_compat; auto.
    - apply Qle_trans with (1 * qpow x k); [|lra]. apply Qmult_le_compat_r; lra. }
  intros x [|k] HP Hk H; [lia|]. cbn [qpow] in H. destruct (Q_dec x 1) as [[LT|GT]|E]; auto; exfalso.
  - destruct (U x k HP ltac:(lra)) as [P Q1]. assert (x * qpow x k < 1 * qpow x k) by (apply Qmult_lt_compat_r; auto). lra.
  - pose proof (L x k ltac:(lra)) as Q1. assert (1 * qpow x k < x * qpow x k) by (apply Qmult_lt_compat_r; lra). lra.
Qed.

Lemma unchanged_iff : forall n dim z l s, (1 <= n)%nat -> (forall e, (e < n)%nat -> z (S e) < z e) -> (1 <= touched Lateral l)%nat ->
  ((forall e j v, (e < n)%nat -> (j < 2)%nat -> s_p (g_py (snd (calls n dim z l s))) e j v == s_p (g_py s) e j v) <->
   (forall e j v, (e < n)%nat -> (j < 2)%nat -> ~ s_p (g_py s) e j v == 0 -> tributary n z (e + j) == 1)).
Proof.
  intros n dim z l s Hn Hz Ht.
  assert (NO : forall e j, (j < 2)%nat -> node_of e j = (e + j)%nat) by (intros e [|[|]] Hj; cbn; lia).
  split; intros H e j v He Hj.
  - intros NZ. rewrite <- (influence_tributary n z Hn Hz (e + j)) by lia. apply (qpow_one _ (touched Lateral l)); auto.
    + apply influence_pos; auto; lia.
    + pose proof (H e j v He Hj) as E. rewrite (proj1 (calls_scale n dim z l s e j v)), (NO e j Hj) in E.
      assert (X : s_p (g_py s) e j v * (qpow (influence n z (e + j)) (touched Lateral l) - 1) == 0) by lra.
      apply Qmult_integral in X. destruct X; [contradiction|lra].
  - rewrite (proj1 (calls_scale n dim z l s e j v)), (NO e j Hj). destruct (Qeq_dec (s_p (g_py s) e j v) 0) as [E|NZ]; [rewrite E; ring|].
    assert (X : influence n z (e + j) == 1) by (rewrite (influence_tributary n z Hn Hz) by lia; apply (H e j v); auto).
    assert (Y : forall k, qpow (influence n z (e + j)) k == 1) by (induction k as [|k IH]; cbn [qpow]; [reflexivity|rewrite IH, X; reflexivity]).
    rewrite Y. ring.
Qed.

(** ** First call of the lumped table *)
Section Lumped.
Variables (n dim : nat) (z : nat -> Q) (s : spring_state).
Hypothesis Hn : (1 <= n)%nat.
Hypothesis Hz : forall e, (e < n)%nat -> z (S e) < z e.

Lemma lumped_first : exists t s', call n dim z Lateral Lumped s = (Ok (Some t), s') /\
  (forall v, fst (t O v) == s_p (g_py s) 0%nat 0%nat v * ((z 0%nat - z 1%nat) / 2) /\ snd (t O v) = s_y (g_py s) 0%nat 0%nat v) /\
  (forall v, fst (t n v) == s_p (g_py s) (n - 1)%nat 1%nat v * ((z (n - 1)%nat - z n) / 2) /\ snd (t n v) = s_y (g_py s) (n - 1)%nat 1%nat v) /\
  (forall i v, (0 < i < n)%nat ->
     fst (t i v) == (s_p (g_py s) (i - 1)%nat 1%nat v * tributary n z (i - 1) + s_p (g_py s) i 0%nat v * tributary n z i) * tributary n z i /\
     snd (t i v) == s_y (g_py s) (i - 1)%nat 1%nat v * tributary n z (i - 1) + s_y (g_py s) i 0%nat v * tributary n z i).
Proof.
  eexists. eexists. split; [reflexivity|]. split; [|split].
  - intros v. unfold lumped_rows. cbn [Nat.eqb fst snd]. split; [|reflexivity]. cbn [weighted s_p Nat.eqb].
    rewrite (influence_tributary n z Hn Hz) by lia. unfold tributary. rewrite Nat.eqb_refl.
    replace (0 =? n)%nat with false by (symmetry; apply Nat.eqb_neq; lia). field.
  - intros v. unfold lumped_rows. replace (n =? 0)%nat with false by (symmetry; apply Nat.eqb_neq; lia). rewrite Nat.eqb_refl.
    cbn [fst snd]. split; [|reflexivity]. cbn [weighted s_p Nat.eqb].
    replace (S (n - 1)) with n by lia. rewrite (influence_tributary n z Hn Hz) by lia. unfold tributary. rewrite Nat.eqb_refl.
    replace (n =? 0)%nat with false by (symmetry; apply Nat.eqb_neq; lia). field.
  - intros i v [H0 H1]. unfold lumped_rows. replace (i =? 0)%nat with false by (symmetry; apply Nat.eqb_neq; lia).
    replace (i =? n)%nat with false by (symmetry; apply Nat.eqb_neq; lia). cbn [fst snd weighted s_p s_y Nat.eqb].
    replace (S (i - 1)) with i by lia. rewrite !(influence_tributary n z Hn Hz) by lia. split; ring.
Qed.

(** Linear variation inside each element *)
Definition total_resistance (p : nat -> nat -> Q) : Q := sum n (fun e => (z e - z (S e)) * (p e 0%nat + p e 1%nat) / 2).
End Lumped.

(** Uniform mesh of 1 m elements in uniform soil *)
Definition unit_z (e : nat) : Q := - inject_Z (Z.of_nat e).

Lemma unit_z_step : forall e, unit_z e - unit_z (S e) == 1.
Proof. intros e. unfold unit_z. rewrite Nat2Z.inj_succ, <- Z.add_1_r, inject_Z_plus. ring. Qed.

Lemma unit_tributary : forall n i, (i <= n)%nat -> (1 <= n)%nat -> tributary n unit_z i == if (Nat.eqb i 0 || Nat.eqb i n)%bool then 1#2 else 1.
Proof.
  intros n i Hi Hn. unfold tributary. pose proof (unit_z_step i) as A.
  destruct (Nat.eqb_spec i 0) as [->|N0]; cbn [orb].
  - replace (0 =? n)%nat with false by (symmetry; apply Nat.eqb_neq; lia). rewrite A. reflexivity.
  - pose proof (unit_z_step (i - 1)) as B. replace (S (i - 1)) with i in B by lia. rewrite B. destruct (Nat.eqb_spec i n); [reflexivity|]. rewrite A. reflexivity.
Qed.

Lemma unit_down : forall e, unit_z (S e) < unit_z e.
Proof. intros e. pose proof (unit_z_step e). lra. Qed.

Definition nodes_total (n : nat) (t : table) (v : nat) : Q := sum (S n) (fun i => fst (t i v)).

Lemma uniform_total : forall n dim s p, (2 <= n)%nat -> (forall e j v, s_p (g_py s) e j v == p) ->
  exists t s', call n dim unit_z Lateral Lumped s = (Ok (Some t), s') /\
  forall v, nodes_total n t v == p * (2 * inject_Z (Z.of_nat n) - (3#2)) /\
            total_resistance n unit_z (fun e j => s_p (g_py s) e j v) == p * inject_Z (Z.of_nat n).
Proof.
  intros n dim s p Hn Hp. destruct (lumped_first n dim unit_z s ltac:(lia) (fun e _ => unit_down e)) as (t & s' & C & T0 & TN & TI).
  exists t, s'. split; [exact C|]. intros v. split.
  - unfold nodes_total. cbn [sum]. destruct n as [|n]; [lia|]. rewrite sum_first.
    assert (E0 : fst (t 0%nat v) == p * (1#2)) by (rewrite (proj1 (T0 v)), Hp, (unit_z_step 0); reflexivity).
    assert (EN : fst (t (S n) v) == p * (1#2)).
    { rewrite (proj1 (TN v)), Hp. pose proof (unit_z_step (S n - 1)) as X. replace (S (S n - 1)) with (S n) in X by lia. rewrite X. reflexivity. }
    rewrite E0, EN. destruct n as [|n]; [lia|]. rewrite sum_first.
    assert (E1 : fst (t 1%nat v) == p * (3#2)).
    { rewrite (proj1 (TI 1%nat v ltac:(lia))), !Hp, !unit_tributary by lia. cbn [Nat.sub Nat.eqb orb].
      replace (0 =? n)%nat with (0 =? n)%nat by reflexivity. change ((1 =? S (S n))%nat) with false. cbn [orb]. ring. }
    rewrite E1. rewrite (sum_ext n _ (fun _ => p * 2)).
    + assert (SC : forall m, sum m (fun _ => p * 2) == p * 2 * inject_Z (Z.of_nat m)).
      { induction m as [|m IH]; cbn [sum]; [ring|]. rewrite IH, (Nat2Z.inj_succ m), <- Z.add_1_r, inject_Z_plus. ring. }
      rewrite SC. rewrite !Nat2Z.inj_succ, <- !Z.add_1_r, !inject_Z_plus. ring.
    + intros i Hi. rewrite (proj1 (TI (S (S i)) v ltac:(lia))), !Hp, !unit_tributary by lia.
      replace (S (S i) - 1)%nat with (S i) by lia. change ((S i =? 0)%nat) with false. change ((S (S i) =? 0)%nat) with false.
      replace (S i =? S (S n))%nat with false by (symmetry; apply Nat.eqb_neq; lia).
      replace (S (S i) =? S (S n))%nat with false by (symmetry; apply Nat.eqb_neq; lia). cbn [orb]. ring.
  - unfold total_resistance. rewrite (sum_ext n _ (fun _ => p)).
    + induction n as [|m IH]; [lia|]. clear IH. clear.
      assert (SC : forall m, sum m (fun _ => p) == p * inject_Z (Z.of_nat m)).
      { induction m0 as [|q IH]; cbn [sum]; [ring|]. rewrite IH, (Nat2Z.inj_succ q), <- Z.add_1_r, inject_Z_plus. ring. }
      apply SC.
    + intros e He. rewrite !Hp, unit_z_step. field.
Qed.

(** ** First call of the distributed table *)
Lemma distributed_first : forall n dim z s, (1 <= n)%nat -> (forall e, (e < n)%nat -> z (S e) < z e) ->
  exists t s', call n dim z Lateral Distributed s = (Ok (Some t), s') /\
  (forall i v, (0 < i < n)%nat -> s_p (g_py s) (i - 1)%nat 1%nat v == s_p (g_py s) i 0%nat v -> s_y (g_py s) (i - 1)%nat 1%nat v == s_y (g_py s) i 0%nat v ->
     fst (t i v) == s_p (g_py s) i 0%nat v * tributary n z i /\ snd (t i v) == s_y (g_py s) i 0%nat v).
Proof.
  intros n dim z s Hn Hz. eexists. eexists. split; [reflexivity|]. intros i v [H0 H1] EP EY.
  unfold distributed_rows. replace (i =? 0)%nat with false by (symmetry; apply Nat.eqb_neq; lia).
  replace (i =? n)%nat with false by (symmetry; apply Nat.eqb_neq; lia). cbn [fst snd weighted s_p s_y Nat.eqb].
  pose proof (influence_pos n z Hn Hz (i - 1)%nat ltac:(lia)). pose proof (influence_pos n z Hn Hz i ltac:(lia)).
  replace (S (i - 1)) with i by lia. rewrite EP, EY. rewrite <- (influence_tributary n z Hn Hz i) by lia. split; field; lra.
Qed.
