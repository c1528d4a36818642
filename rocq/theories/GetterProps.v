(** Properties C38, C39 and C64: tables of springs. *)
From Coq Require Import List Bool Arith ZArith QArith Qabs Qminmax Lia Lqa.
From Verif Require Import Base LinAlg GetterModel GetterProofs.
Import ListNotations.
Local Open Scope Q_scope.

(** C38: full statement: any sequence of calls leaves the springs as they were.
    Exact effect of any sequence: resistances are multiplied by the tributary length once per call. *)
Theorem C38_effect_of_calls_partial : forall n dim z l s, (1 <= n)%nat -> (forall e, (e < n)%nat -> z (S e) < z e) ->
  let s' := snd (calls n dim z l s) in
  (forall e j v, (e < n)%nat -> (j < 2)%nat ->
     s_p (g_py s') e j v == s_p (g_py s) e j v * qpow (tributary n z (e + j)) (touched Lateral l) /\
     s_p (g_tz s') e j v == s_p (g_tz s) e j v * qpow (tributary n z (e + j)) (touched Axial l)) /\
  s_y (g_py s') = s_y (g_py s) /\ s_y (g_tz s') = s_y (g_tz s) /\ g_mt s' = g_mt s.
Proof.
  intros n dim z l s Hn Hz s'. split.
  - intros e j v He Hj. destruct (calls_scale n dim z l s e j v) as (A & B & _).
    assert (NO : node_of e j = (e + j)%nat) by (destruct j as [|[|]]; cbn; lia).
    assert (E : forall k, qpow (influence n z (e + j)) k == qpow (tributary n z (e + j)) k).
    { induction k as [|k IH]; cbn [qpow]; [reflexivity|]. rewrite IH, (influence_tributary n z Hn Hz) by lia. reflexivity. }
    rewrite NO in A, B. rewrite E in A. rewrite E in B. split; [exact A|exact B].
  - exact (proj2 (proj2 (calls_scale n dim z l s 0 0 0))).
Qed.
Print Assumptions C38_effect_of_calls_partial.

Theorem C38_unchanged_iff_unit_mesh : forall n dim z l s, (1 <= n)%nat -> (forall e, (e < n)%nat -> z (S e) < z e) -> (1 <= touched Lateral l)%nat ->
  ((forall e j v, (e < n)%nat -> (j < 2)%nat -> s_p (g_py (snd (calls n dim z l s))) e j v == s_p (g_py s) e j v) <->
   (forall e j v, (e < n)%nat -> (j < 2)%nat -> ~ s_p (g_py s) e j v == 0 -> tributary n z (e + j) == 1)).
Proof. exact unchanged_iff. Qed.
Print Assumptions C38_unchanged_iff_unit_mesh.

Definition plain : springs := {| s_p := fun _ _ v => inject_Z (Z.of_nat v); s_y := fun _ _ v => inject_Z (Z.of_nat v) |}.
Definition state0 : spring_state := {| g_py := plain; g_tz := plain; g_mt := {| t_m := fun _ _ _ v => inject_Z (Z.of_nat v); t_t := fun _ _ _ v => inject_Z (Z.of_nat v) |} |}.

(** Reading the same table twice gives different tables. *)
Theorem C38_second_reading_refuted : exists n dim z s t1 t2 s', (forall e, (e < n)%nat -> z (S e) < z e) /\
  calls n dim z [(Lateral, Distributed); (Lateral, Distributed)] s = ([Ok (Some t1); Ok (Some t2)], s') /\ ~ fst (t1 0%nat 1%nat) == fst (t2 0%nat 1%nat).
Proof.
  exists 2%nat, 15%nat, unit_z, state0. eexists. eexists. eexists. split; [intros e _; apply unit_down|]. split; [reflexivity|]. vm_compute. discriminate.
Qed.
Print Assumptions C38_second_reading_refuted.

Example C38_example : (forall e, (e < 2)%nat -> unit_z (S e) < unit_z e) /\ touched Lateral [(Lateral, Lumped); (Axial, Lumped); (Lateral, Distributed)] = 2%nat.
Proof. split; [intros e _; apply unit_down|reflexivity]. Qed.

(** C39: full statement: the lumped resistances add up to the resistance along the pile.
    Correct at both ends; exact values at inner nodes. *)
Theorem C39_lumped_values_partial : forall n dim z s, (1 <= n)%nat -> (forall e, (e < n)%nat -> z (S e) < z e) ->
  exists t s', call n dim z Lateral Lumped s = (Ok (Some t), s') /\
  (forall v, fst (t O v) == s_p (g_py s) 0%nat 0%nat v * ((z 0%nat - z 1%nat) / 2) /\ snd (t O v) = s_y (g_py s) 0%nat 0%nat v) /\
  (forall v, fst (t n v) == s_p (g_py s) (n - 1)%nat 1%nat v * ((z (n - 1)%nat - z n) / 2) /\ snd (t n v) = s_y (g_py s) (n - 1)%nat 1%nat v) /\
  (forall i v, (0 < i < n)%nat ->
     fst (t i v) == (s_p (g_py s) (i - 1)%nat 1%nat v * tributary n z (i - 1) + s_p (g_py s) i 0%nat v * tributary n z i) * tributary n z i /\
     snd (t i v) == s_y (g_py s) (i - 1)%nat 1%nat v * tributary n z (i - 1) + s_y (g_py s) i 0%nat v * tributary n z i).
Proof. exact lumped_first. Qed.
Print Assumptions C39_lumped_values_partial.

(** 1 m elements in uniform soil: 2 n - 3/2 times the resistance instead of n times, for every n >= 2. *)
Theorem C39_uniform_total_refuted : forall n dim s p, (2 <= n)%nat -> (forall e j v, s_p (g_py s) e j v == p) ->
  exists t s', call n dim unit_z Lateral Lumped s = (Ok (Some t), s') /\
  forall v, nodes_total n t v == p * (2 * inject_Z (Z.of_nat n) - (3#2)) /\
            total_resistance n unit_z (fun e j => s_p (g_py s) e j v) == p * inject_Z (Z.of_nat n).
Proof. exact uniform_total. Qed.
Print Assumptions C39_uniform_total_refuted.

(** The distributed table multiplies the resistance per metre by the tributary length as well. *)
Theorem C39_distributed_values_partial : forall n dim z s, (1 <= n)%nat -> (forall e, (e < n)%nat -> z (S e) < z e) ->
  exists t s', call n dim z Lateral Distributed s = (Ok (Some t), s') /\
  (forall i v, (0 < i < n)%nat -> s_p (g_py s) (i - 1)%nat 1%nat v == s_p (g_py s) i 0%nat v -> s_y (g_py s) (i - 1)%nat 1%nat v == s_y (g_py s) i 0%nat v ->
     fst (t i v) == s_p (g_py s) i 0%nat v * tributary n z i /\ snd (t i v) == s_y (g_py s) i 0%nat v).
Proof. exact distributed_first. Qed.
Print Assumptions C39_distributed_values_partial.

Example C39_example : exists t s', call 3 15 unit_z Lateral Lumped {| g_py := {| s_p := fun _ _ _ => 10; s_y := fun _ _ v => inject_Z (Z.of_nat v) |}; g_tz := plain; g_mt := g_mt state0 |} = (Ok (Some t), s') /\ nodes_total 3 t 1 == 45.
Proof. eexists. eexists. split; [reflexivity|]. vm_compute. reflexivity. Qed.

(** The lumped rotational table shows, for every point, the largest moment and the largest rotation over the
    p-values, weighted like the lateral one, and leaves the springs alone. *)
Definition largest (m : nat) (f : nat -> Q) (x : Q) : Prop := (exists q, (q <= m)%nat /\ x == f q) /\ forall q, (q <= m)%nat -> f q <= x.
Lemma max_upto_largest : forall m f, largest m f (max_upto m f).
Proof.
  induction m as [|m IH]; intros f; cbn [max_upto].
  - split; [exists 0%nat; split; [lia|reflexivity]|]. intros q Hq. replace q with 0%nat by lia. apply Qle_refl.
  - destruct (IH f) as [(q & Hq & E) U]. split.
    + destruct (Q.max_spec (max_upto m f) (f (S m))) as [[_ M]|[_ M]].
      * exists (S m). split; [lia|exact M].
      * exists q. split; [lia|]. rewrite M. exact E.
    + intros k Hk. destruct (Nat.eq_dec k (S m)) as [->|N]; [apply Q.le_max_r|]. eapply Qle_trans; [apply U; lia|apply Q.le_max_l].
Qed.
Theorem C39_rotational_values_partial : forall n dim z s, (1 <= n)%nat -> (forall e, (e < n)%nat -> z (S e) < z e) ->
  exists t M T, call n dim z Rotational Lumped s = (Ok (Some t), s) /\
  (forall e j v, largest (dim - 1) (fun q => t_m (g_mt s) e j q v) (M e j v) /\ largest (dim - 1) (fun q => t_t (g_mt s) e j q v) (T e j v)) /\
  (forall v, fst (t O v) == M 0%nat 0%nat v * ((z 0%nat - z 1%nat) / 2) /\ snd (t O v) = T 0%nat 0%nat v) /\
  (forall v, fst (t n v) == M (n - 1)%nat 1%nat v * ((z (n - 1)%nat - z n) / 2) /\ snd (t n v) = T (n - 1)%nat 1%nat v) /\
  (forall i v, (0 < i < n)%nat ->
     fst (t i v) == (M (i - 1)%nat 1%nat v * tributary n z (i - 1) + M i 0%nat v * tributary n z i) * tributary n z i /\
     snd (t i v) == T (i - 1)%nat 1%nat v * tributary n z (i - 1) + T i 0%nat v * tributary n z i).
Proof.
  intros n dim z s Hn Hz. set (ms := max_springs (dim - 1) (g_mt s)). exists (fst (get_lumped n z ms)), (s_p ms), (s_y ms). split; [reflexivity|].
  split; [intros e j v; split; apply max_upto_largest|].
  destruct (C39_lumped_values_partial n dim z {| g_py := ms; g_tz := g_tz s; g_mt := g_mt s |} Hn Hz) as (t & s' & E & H). cbn [call get_lumped g_py g_tz g_mt] in E.
  assert (fst (get_lumped n z ms) = t) as -> by (cbn [get_lumped fst]; congruence). exact H.
Qed.
Print Assumptions C39_rotational_values_partial.


(** C64: full statement: every combination of spring type and documented layout gives a table. *)
Theorem C64_available_partial : forall n dim z g k s, (g, k) <> (Rotational, Distributed) -> k <> OtherLayout -> exists t s', call n dim z g k s = (Ok (Some t), s').
Proof. intros n dim z [] [] s N1 N2; try congruence; eexists; eexists; reflexivity. Qed.
Print Assumptions C64_available_partial.

Theorem C64_rotational_distributed_refuted : forall n dim z s, call n dim z Rotational Distributed s = (Err AttributeError, s).
Proof. reflexivity. Qed.
Print Assumptions C64_rotational_distributed_refuted.

Theorem C64_other_layout : forall n dim z g s, call n dim z g OtherLayout s = (Ok None, s).
Proof. reflexivity. Qed.
Print Assumptions C64_other_layout.
