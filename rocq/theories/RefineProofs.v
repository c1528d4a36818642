(** Inserting a node into an element changes nothing at the other nodes. *)
From Coq Require Import List Bool Arith QArith Lia Lqa Setoid.
From Verif Require Import Base LinAlg BeamModel BeamSpec BeamProofs SolveModel SolveSpec SolveProofs ForceProofs RefineSpec CantileverProofs.
Import ListNotations.
Local Open Scope Q_scope.

Lemma stiff_phi : forall E I A L phi ks u N P M, ~ E == 0 -> ~ I == 0 -> ~ A == 0 -> ~ L == 0 -> ~ 1 + phi == 0 -> phi == 12 * E * I * ks / (L * L) ->
  u 0%nat == u 3%nat + N * L / (E * A) ->
  u 2%nat == u 5%nat + M * L / (E * I) - P * (L * L) / (2 * (E * I)) ->
  u 1%nat == u 4%nat - L * u 5%nat - M * (L * L) / (2 * (E * I)) + P * (L * L * L / (3 * (E * I)) + ks * L) ->
  let f := mulv 6 (mech_phi E I A L phi) u in
  f 0%nat == N /\ f 1%nat == P /\ f 2%nat == M /\ f 3%nat == - N /\ f 4%nat == - P /\ f 5%nat == L * P - M.
Proof.
  intros E I A L phi ks u N P M HE HI HA HL HP EP U0 U2 U1 f.
  assert (EK : ks == phi * (L * L) / (12 * E * I)) by (rewrite EP; field; auto).
  unfold f, mulv, mech_phi, of_rows. cbn [sum nth]. rewrite U0, U1, U2, EK. clear EK EP f U0 U1 U2.
  repeat split; field; auto.
Qed.

Lemma stiffness : forall ty c E nu I A d wt L k u N P M, 0 < E -> -(3#4) <= nu -> 0 < I -> 0 < A -> 0 < d -> 0 < L ->
  elem_mech ty c E nu I A d wt L = Ok k ->
  u 0%nat == u 3%nat + N * L / (E * A) ->
  u 2%nat == u 5%nat + M * L / (E * I) - P * (L * L) / (2 * (E * I)) ->
  u 1%nat == u 4%nat - L * u 5%nat - M * (L * L) / (2 * (E * I)) + P * (L * L * L / (3 * (E * I)) + shear_flex ty E nu A d wt * L) ->
  let f := mulv 6 k u in
  f 0%nat == N /\ f 1%nat == P /\ f 2%nat == M /\ f 3%nat == - N /\ f 4%nat == - P /\ f 5%nat == L * P - M.
Proof.
  intros ty c E nu I A d wt L k u N P M HE HN HI HA HD HL H U0 U2 U1 f. unfold f. clear f.
  destruct (elem_mech_ok ty c E nu I A d wt L k) as (phi & HP & -> & EP); auto.
  apply stiff_phi with (ks := shear_flex ty E nu A d wt); auto; try (apply pos_nonzero; lra).
  unfold shear_flex. destruct ty; rewrite EP.
  + field. apply pos_nonzero; auto.
  + set (kp := tube_kappa nu d wt). clearbody kp. field. repeat split; apply pos_nonzero; lra.
Qed.

(** An element cut in two: the end forces are the same and the new node is in balance. *)
Lemma cut_element : forall ty c E nu I A d wt L1 L2 L k k1 k2 u, 0 < E -> -(3#4) <= nu -> 0 < I -> 0 < A -> 0 < d -> 0 < L1 -> 0 < L2 -> L == L1 + L2 ->
  elem_mech ty c E nu I A d wt L = Ok k -> elem_mech ty c E nu I A d wt L1 = Ok k1 -> elem_mech ty c E nu I A d wt L2 = Ok k2 ->
  exists mid : vec, 
    let f := mulv 6 k u in
    let f1 := mulv 6 k1 (of_list [u 0; u 1; u 2; mid 0; mid 1; mid 2])%nat in
    let f2 := mulv 6 k2 (of_list [mid 0; mid 1; mid 2; u 3; u 4; u 5])%nat in
    forall i, (i < 3)%nat -> f1 i == f i /\ f2 (3 + i)%nat == f (3 + i)%nat /\ f1 (3 + i)%nat + f2 i == 0.
Proof.
  intros ty c E nu I A d wt L1 L2 L k k1 k2 u HE HN HI HA HD H1 H2 EL K0 K1 K2.
  assert (HL : 0 < L) by lra.
  destruct (flexibility _ _ _ _ _ _ _ _ _ _ u HE HN HI HA HD HL K0) as (F0 & F2 & F1). cbv zeta in F0, F1, F2.
  destruct (elem_mech_sound _ _ _ _ _ _ _ _ _ _ HE HN HI HA HD HL K0) as (_ & _ & _ & _ & EQ). specialize (EQ u). cbv zeta in EQ. destruct EQ as (E0 & E1 & E2).
  set (f := mulv 6 k u) in *. set (ks := shear_flex ty E nu A d wt) in *.
  set (N := f 0%nat) in *. set (P := f 1%nat) in *. set (M := f 2%nat) in *.
  set (M2 := M - L1 * P).
  set (mid := of_list [u 3%nat + N * L2 / (E * A);
     u 4%nat - L2 * u 5%nat - M2 * (L2 * L2) / (2 * (E * I)) + P * (L2 * L2 * L2 / (3 * (E * I)) + ks * L2);
     u 5%nat + M2 * L2 / (E * I) - P * (L2 * L2) / (2 * (E * I))]). exists mid. cbv zeta.
  assert (NE : ~ E == 0) by (apply pos_nonzero; auto). assert (NI : ~ I == 0) by (apply pos_nonzero; auto). assert (NA : ~ A == 0) by (apply pos_nonzero; auto).
  set (v1 := of_list [u 0%nat; u 1%nat; u 2%nat; mid 0%nat; mid 1%nat; mid 2%nat]). set (v2 := of_list [mid 0%nat; mid 1%nat; mid 2%nat; u 3%nat; u 4%nat; u 5%nat]).
  destruct (stiffness _ _ _ _ _ _ _ _ _ _ v2 N P M2 HE HN HI HA HD H2 K2) as (B0 & B1 & B2 & B3 & B4 & B5); [unfold v2, of_list, mid; cbn [nth]; reflexivity..|].
  destruct (stiffness _ _ _ _ _ _ _ _ _ _ v1 N P M HE HN HI HA HD H1 K1) as (A0 & A1 & A2 & A3 & A4 & A5).
  { unfold v1, mid, of_list. cbn [nth]. rewrite F0, EL. field. auto. }
  { unfold v1, mid, of_list, M2. cbn [nth]. rewrite F2, EL. field. auto. }
  { unfold v1, mid, of_list, M2. cbn [nth]. fold ks. rewrite F1, EL. field. auto. }
  intros i Hi. destruct i as [|[|[|i]]]; [| | |lia]; cbn [Nat.add].
  - rewrite A0, A3, B0, B3. fold N. repeat split; try reflexivity; lra.
  - rewrite A1, A4, B1, B4. fold P. repeat split; try reflexivity; lra.
  - rewrite A2, A5, B2, B5. fold M. unfold M2. repeat split; try reflexivity; [|lra].
    assert (f 4%nat == - P) by lra. rewrite H, EL in E2. lra.
Qed.

Section Insert.
Variables (ty : elem_type) (c : bool) (E nu : Q) (n : nat) (I A dd wt z : nat -> Q) (k k' : nat -> mat) (m : nat) (x : Q).
Hypothesis HE : 0 < E.
Hypothesis HN : -(3#4) <= nu.
Hypothesis HK : forall e, (e < n)%nat -> 0 < I e /\ 0 < A e /\ 0 < dd e /\ z (S e) < z e /\
     elem_mech ty c E nu (I e) (A e) (dd e) (wt e) (z e - z (S e)) = Ok (k e).
Hypothesis HM : (m < n)%nat.
Hypothesis HX : z (S m) < x /\ x < z m.
Hypothesis HK' : forall e, (e < S n)%nat ->
     elem_mech ty c E nu (cut m I e) (cut m A e) (cut m dd e) (cut m wt e) (ins m x z e - ins m x z (S e)) = Ok (k' e).

Lemma k_before : forall e, (e < m)%nat -> k' e = k e.
Proof.
  intros e He. destruct (HK e ltac:(lia)) as (_ & _ & _ & _ & K). pose proof (HK' e ltac:(lia)) as K'. unfold cut, ins in K'.
  rewrite (proj2 (Nat.leb_le e m)), (proj2 (Nat.leb_le (S e) m)) in K' by lia. congruence.
Qed.
Lemma k_after : forall e, (m < e)%nat -> (e < n)%nat -> k' (S e) = k e.
Proof.
  intros e H1 H2. destruct (HK e ltac:(lia)) as (_ & _ & _ & _ & K). pose proof (HK' (S e) ltac:(lia)) as K'. unfold cut, ins in K'.
  rewrite (proj2 (Nat.leb_gt (S e) m)), (proj2 (Nat.leb_gt (S (S e)) m)), (proj2 (Nat.eqb_neq (S e) (S m))), (proj2 (Nat.eqb_neq (S (S e)) (S m))) in K' by lia.
  replace (S e - 1)%nat with e in K' by lia. replace (S (S e) - 1)%nat with (S e) in K' by lia. congruence.
Qed.

Lemma inserted : forall u, exists mid, forall a q, (a <= S n)%nat -> (q < 3)%nat ->
  mulv (3 * S n + 3) (jit_build (S n) k') (ins3 m mid u) (3 * a + q)%nat ==
  ins3 m (fun _ => 0) (mulv (3 * n + 3) (jit_build n k) u) (3 * a + q)%nat.
Proof.
  intros u. destruct (HK m HM) as (P1 & P2 & P3 & P4 & P5).
  assert (K1 : elem_mech ty c E nu (I m) (A m) (dd m) (wt m) (z m - x) = Ok (k' m)).
  { pose proof (HK' m ltac:(lia)) as K'. unfold cut, ins in K'. rewrite (proj2 (Nat.leb_le m m)), (proj2 (Nat.leb_gt (S m) m)), Nat.eqb_refl in K' by lia. exact K'. }
  assert (K2 : elem_mech ty c E nu (I m) (A m) (dd m) (wt m) (x - z (S m)) = Ok (k' (S m))).
  { pose proof (HK' (S m) ltac:(lia)) as K'. unfold cut, ins in K'. rewrite (proj2 (Nat.leb_gt (S m) m)), (proj2 (Nat.leb_gt (S (S m)) m)), Nat.eqb_refl, (proj2 (Nat.eqb_neq (S (S m)) (S m))) in K' by lia.
    replace (S m - 1)%nat with m in K' by lia. replace (S (S m) - 1)%nat with (S m) in K' by lia. exact K'. }
  destruct (cut_element _ _ _ _ _ _ _ _ (z m - x) (x - z (S m)) (z m - z (S m)) _ _ _ (elem_disp u m) HE HN P1 P2 P3 ltac:(lra) ltac:(lra) ltac:(ring) P5 K1 K2) as [mid CUT]. cbv zeta in CUT.
  exists mid. set (u' := ins3 m mid u). set (f := fun e => mulv 6 (k e) (elem_disp u e)). set (f' := fun e => mulv 6 (k' e) (elem_disp u' e)).
  assert (EB : forall e i, (e < m)%nat -> f' e i == f e i).
  { intros e i He. unfold f, f'. rewrite k_before by auto. apply mulv_ext; [reflexivity|]. intros j Hj. unfold elem_disp, u', ins3. rewrite (proj2 (Nat.ltb_lt (3 * e + j) (3 * S m))) by lia. reflexivity. }
  assert (EA : forall e i, (m < e)%nat -> (e < n)%nat -> f' (S e) i == f e i).
  { intros e i He Hn. unfold f, f'. rewrite k_after by auto. apply mulv_ext; [reflexivity|]. intros j Hj. unfold elem_disp, u', ins3.
    rewrite (proj2 (Nat.ltb_ge (3 * S e + j) (3 * S m))), (proj2 (Nat.ltb_ge (3 * S e + j) (3 * S (S m)))) by lia. replace (3 * S e + j - 3)%nat with (3 * e + j)%nat by lia. reflexivity. }
  assert (DT : forall j, (j < 6)%nat -> elem_disp u' m j = of_list [elem_disp u m 0; elem_disp u m 1; elem_disp u m 2; mid 0; mid 1; mid 2]%nat j).
  { intros j Hj. unfold elem_disp, u', ins3. destruct (Nat.lt_ge_cases j 3).
    - rewrite (proj2 (Nat.ltb_lt (3 * m + j) (3 * S m))) by lia. destruct j as [|[|[|j]]]; try lia; reflexivity.
    - rewrite (proj2 (Nat.ltb_ge (3 * m + j) (3 * S m))), (proj2 (Nat.ltb_lt (3 * m + j) (3 * S (S m)))) by lia. replace (3 * m + j - 3 * S m)%nat with (j - 3)%nat by lia.
      destruct j as [|[|[|[|[|[|j]]]]]]; try lia; reflexivity. }
  assert (DB : forall j, (j < 6)%nat -> elem_disp u' (S m) j = of_list [mid 0; mid 1; mid 2; elem_disp u m 3; elem_disp u m 4; elem_disp u m 5]%nat j).
  { intros j Hj. unfold elem_disp, u', ins3. rewrite (proj2 (Nat.ltb_ge (3 * S m + j) (3 * S m))) by lia. destruct (Nat.lt_ge_cases j 3).
    - rewrite (proj2 (Nat.ltb_lt (3 * S m + j) (3 * S (S m)))) by lia. replace (3 * S m + j - 3 * S m)%nat with j by lia. destruct j as [|[|[|j]]]; try lia; reflexivity.
    - rewrite (proj2 (Nat.ltb_ge (3 * S m + j) (3 * S (S m)))) by lia. replace (3 * S m + j - 3)%nat with (3 * m + j)%nat by lia.
      destruct j as [|[|[|[|[|[|j]]]]]]; try lia; reflexivity. }
  assert (C : forall i, (i < 3)%nat -> f' m i == f m i /\ f' (S m) (3 + i)%nat == f m (3 + i)%nat /\ f' m (3 + i)%nat + f' (S m) i == 0).
  { intros i Hi. destruct (CUT i Hi) as (C1 & C2 & C3). unfold f, f'.
    assert (X1 : forall i, mulv 6 (k' m) (elem_disp u' m) i == mulv 6 (k' m) (of_list [elem_disp u m 0; elem_disp u m 1; elem_disp u m 2; mid 0; mid 1; mid 2]%nat) i).
    { intros t. apply mulv_ext; [reflexivity|]. intros j Hj. rewrite DT by auto. reflexivity. }
    assert (X2 : forall i, mulv 6 (k' (S m)) (elem_disp u' (S m)) i == mulv 6 (k' (S m)) (of_list [mid 0; mid 1; mid 2; elem_disp u m 3; elem_disp u m 4; elem_disp u m 5]%nat) i).
    { intros t. apply mulv_ext; [reflexivity|]. intros j Hj. rewrite DB by auto. reflexivity. }
    rewrite !X1, !X2. auto. }
  intros a q Ha Hq. rewrite net_force by auto. fold f'. unfold ins3 at 1.
  destruct (Nat.lt_trichotomy a (S m)) as [L|[->|G]].
  - rewrite (proj2 (Nat.ltb_lt (3 * a + q) (3 * S m))) by lia. rewrite net_force by lia. fold f. rewrite (proj2 (Nat.ltb_lt a (S n))), (proj2 (Nat.ltb_lt a n)) by lia.
    assert (X : f' a q == f a q). { destruct (Nat.eq_dec a m) as [->|N]; [exact (proj1 (C q Hq))|apply EB; lia]. }
    assert (Y : match a with O => 0 | S b => f' b (3 + q)%nat end == match a with O => 0 | S b => f b (3 + q)%nat end).
    { destruct a as [|b]; [reflexivity|]. apply EB. lia. }
    change (f' a q + match a with O => 0 | S b => f' b (3 + q)%nat end == f a q + match a with O => 0 | S b => f b (3 + q)%nat end). rewrite X, Y. reflexivity.
  - rewrite (proj2 (Nat.ltb_ge (3 * S m + q) (3 * S m))), (proj2 (Nat.ltb_lt (3 * S m + q) (3 * S (S m)))), (proj2 (Nat.ltb_lt (S m) (S n))) by lia.
    destruct (C q Hq) as (_ & _ & C3). change (f' (S m) q + f' m (3 + q)%nat == 0). lra.
  - rewrite (proj2 (Nat.ltb_ge (3 * a + q) (3 * S m))), (proj2 (Nat.ltb_ge (3 * a + q) (3 * S (S m)))) by lia.
    destruct a as [|b]; [lia|]. replace (3 * S b + q - 3)%nat with (3 * b + q)%nat by lia. rewrite net_force by lia. fold f.
    assert (BL : (S b <? S n)%nat = (b <? n)%nat) by reflexivity. rewrite BL.
    assert (X : (if (b <? n)%nat then f' (S b) q else 0) == (if (b <? n)%nat then f b q else 0)).
    { destruct (Nat.ltb_spec b n); [|reflexivity]. apply EA; lia. }
    destruct b as [|b]; [lia|].
    assert (Y : f' (S b) (3 + q)%nat == f b (3 + q)%nat).
    { destruct (Nat.eq_dec b m) as [->|N]; [exact (proj1 (proj2 (C q Hq)))|apply EA; lia]. }
    change ((if (S b <? n)%nat then f' (S (S b)) q else 0) + f' (S b) (3 + q)%nat == (if (S b <? n)%nat then f (S b) q else 0) + f b (3 + q)%nat). rewrite X, Y. reflexivity.
Qed.
End Insert.

(** ** Whole analyses *)
Lemma ins3_shift : forall {T} m (x f : nat -> T) a q, (q < 3)%nat -> ins3 m x f (3 * shift m a + q) = f (3 * a + q)%nat.
Proof.
  intros T m x f a q Hq. unfold ins3, shift. destruct (Nat.leb_spec a m).
  - rewrite (proj2 (Nat.ltb_lt (3 * a + q) (3 * S m))) by lia. reflexivity.
  - rewrite (proj2 (Nat.ltb_ge (3 * S a + q) (3 * S m))), (proj2 (Nat.ltb_ge (3 * S a + q) (3 * S (S m)))) by lia. f_equal. lia.
Qed.
Lemma ins3_new : forall {T} m (x f : nat -> T) q, (q < 3)%nat -> ins3 m x f (3 * S m + q) = x q.
Proof.
  intros T m x f q Hq. unfold ins3. rewrite (proj2 (Nat.ltb_ge (3 * S m + q) (3 * S m))), (proj2 (Nat.ltb_lt (3 * S m + q) (3 * S (S m)))) by lia. f_equal. lia.
Qed.
Lemma node_cases : forall m n i, (m < n)%nat -> (i < 3 * S n + 3)%nat ->
  (exists q, (q < 3)%nat /\ i = (3 * S m + q)%nat) \/ (exists a q, (a <= n)%nat /\ (q < 3)%nat /\ i = (3 * shift m a + q)%nat).
Proof.
  intros m n i Hm Hi. pose proof (Nat.div_mod i 3 ltac:(lia)) as D. pose proof (Nat.mod_upper_bound i 3 ltac:(lia)) as B. set (a := (i / 3)%nat) in *. set (q := (i mod 3)%nat) in *.
  destruct (Nat.lt_trichotomy a (S m)) as [L|[->|G]].
  - right. exists a, q. unfold shift. rewrite (proj2 (Nat.leb_le a m)) by lia. lia.
  - left. exists q. lia.
  - right. exists (a - 1)%nat, q. unfold shift. rewrite (proj2 (Nat.leb_gt (a - 1) m)) by lia. lia.
Qed.
Lemma shift_z : forall m (x : Q) (z : nat -> Q) a, ins m x z (shift m a) = z a.
Proof.
  intros m x z a. unfold ins, shift. destruct (Nat.leb_spec a m).
  - rewrite (proj2 (Nat.leb_le a m)) by lia. reflexivity.
  - rewrite (proj2 (Nat.leb_gt (S a) m)), (proj2 (Nat.eqb_neq (S a) (S m))) by lia. f_equal. lia.
Qed.
Lemma shift_le : forall m n a, (a <= n)%nat -> (shift m a <= S n)%nat.
Proof. intros. unfold shift. destruct (a <=? m)%nat; lia. Qed.
Lemma shift_inj : forall m a b, shift m a = shift m b -> a = b.
Proof. intros m a b. unfold shift. destruct (Nat.leb_spec a m), (Nat.leb_spec b m); lia. Qed.

Lemma supports_ins : forall m r U i, supports_of (ins3 m (fun _ => false) r) (ins3 m (fun _ => 0) U) i = ins3 m (fun _ => false) (supports_of r U) i.
Proof.
  intros m r U i. unfold supports_of, ins3. destruct (i <? 3 * S m)%nat; [reflexivity|]. destruct (i <? 3 * S (S m))%nat; reflexivity.
Qed.

Lemma held_ins : forall m n r r', (forall i, r' i = ins3 m (fun _ => false) r i) -> held n r -> held (S n) r'.
Proof.
  intros m n r r' HR [(a & Ha & RA) (b & Hb & RB & X)].
  assert (MAP : forall a q, (q < 3)%nat -> r (3 * a + q)%nat = true -> r' (3 * shift m a + q)%nat = true).
  { intros a0 q Hq H. rewrite HR, ins3_shift; auto. }
  split.
  - exists (shift m a). split; [apply shift_le; auto|]. pose proof (MAP a 0%nat ltac:(lia)) as Y. rewrite !Nat.add_0_r in Y. auto.
  - exists (shift m b). split; [apply shift_le; auto|]. split; [apply MAP; auto|]. destruct X as [(e & He & RE)|(e & He & NE & RE)].
    + left. exists (shift m e). split; [apply shift_le; auto|]. apply MAP; auto.
    + right. exists (shift m e). split; [apply shift_le; auto|]. split; [intro Y; apply NE, (shift_inj m); auto|]. apply MAP; auto.
Qed.

Lemma elem_mech_any : forall ty c E nu I A d wt L k I' A' d' wt' L', elem_mech ty c E nu I A d wt L = Ok k -> exists k', elem_mech ty c E nu I' A' d' wt' L' = Ok k'.
Proof.
  intros ty c E nu I A d wt L k I' A' d' wt' L' H. unfold elem_mech, shear_kappa in *. destruct ty; [eexists; reflexivity|]. destruct c; [eexists; reflexivity|]. discriminate.
Qed.


Lemma choose_k : forall n (g : nat -> res mat), (forall e, (e < n)%nat -> exists k, g e = Ok k) -> exists K, forall e, (e < n)%nat -> g e = Ok (K e).
Proof.
  intros n g H. exists (fun e => match g e with Ok k => k | Err _ => fun _ _ => 0 end). intros e He. destruct (H e He) as [k ->]. reflexivity.
Qed.

Lemma insert_proper : forall ty c E nu j k m x, proper ty c E nu j k -> (m < j_n j)%nat -> j_z j (S m) < x -> x < j_z j m ->
  exists k', proper ty c E nu (insert_node m x j) k'.
Proof.
  intros ty c E nu j k m x HP HM X1 X2. unfold proper in *. cbn [insert_node j_n j_I j_A j_d j_wt j_z].
  destruct (choose_k (S (j_n j)) (fun e => elem_mech ty c E nu (cut m (j_I j) e) (cut m (j_A j) e) (cut m (j_d j) e) (cut m (j_wt j) e) (ins m x (j_z j) e - ins m x (j_z j) (S e)))) as [K HK].
  { intros e He. destruct (HP m HM) as (_ & _ & _ & _ & P5). eapply elem_mech_any. exact P5. }
  exists K. intros e He. specialize (HK e He). cbv beta in HK.
  assert (PC : forall f, (forall e, (e < j_n j)%nat -> 0 < f e) -> 0 < cut m f e).
  { intros f Hf. unfold cut. destruct (Nat.leb_spec e m); apply Hf; lia. }
  split; [apply PC; intros; apply HP; auto|]. split; [apply PC; intros; apply HP; auto|]. split; [apply PC; intros; apply HP; auto|].
  split; [|exact HK].
  assert (HZ : forall e, (e < j_n j)%nat -> j_z j (S e) < j_z j e) by (intros; apply HP; auto).
  unfold ins. destruct (Nat.leb_spec e m), (Nat.leb_spec (S e) m); try lia.
  - apply HZ. lia.
  - replace e with m by lia. rewrite Nat.eqb_refl. auto.
  - rewrite (proj2 (Nat.eqb_neq (S e) (S m))) by lia. destruct (Nat.eqb_spec e (S m)) as [->|N].
    + replace (S (S m) - 1)%nat with (S m) by lia. auto.
    + replace (S e - 1)%nat with (S (e - 1)) by lia. apply HZ. lia.
Qed.

Lemma insert_analysed : forall solve ty c E nu j m x d Q, solver_ok solve -> 0 < E -> -(3#4) <= nu ->
  analysed solve ty c E nu j d Q -> (m < j_n j)%nat -> j_z j (S m) < x -> x < j_z j m ->
  exists d' Q', analysed solve ty c E nu (insert_node m x j) d' Q' /\
    (forall a q, (a <= j_n j)%nat -> (q < 3)%nat -> d' (3 * shift m a + q)%nat == d (3 * a + q)%nat /\ Q' (3 * shift m a + q)%nat == Q (3 * a + q)%nat) /\
    (forall q, (q < 3)%nat -> Q' (3 * S m + q)%nat == 0).
Proof.
  intros solve ty c E nu j m x d Q SO HE HN (k & q & HP & HB) HM X1 X2.
  destruct (insert_proper _ _ _ _ _ _ _ x HP HM X1 X2) as [k' HP'].
  assert (HH : held (j_n j) (supports_of (j_r j) (j_U j))).
  { apply (pile_beam_succeeds solve (j_n j) ty c E nu _ _ _ _ (j_z j) k (j_F j) (j_U j) (j_r j) SO HE HN HP). eexists. exact HB. }
  set (j' := insert_node m x j) in *.
  assert (HH' : held (j_n j') (supports_of (j_r j') (j_U j'))).
  { apply (held_ins m (j_n j) (supports_of (j_r j) (j_U j))); auto. intros i. apply supports_ins. }
  destruct (proj2 (pile_beam_succeeds solve (j_n j') ty c E nu _ _ _ _ (j_z j') k' (j_F j') (j_U j') (j_r j') SO HE HN HP') HH') as [[[d' Q'] q'] HB'].
  exists d', Q'. split; [exists k', q'; auto|].
  destruct (inserted ty c E nu (j_n j) (j_I j) (j_A j) (j_d j) (j_wt j) (j_z j) k k' m x HE HN HP HM (conj X1 X2)) with (u := d) as [mid HI].
  { intros e He. apply HP'. exact He. }
  destruct (beam_parts _ _ _ _ _ _ _ _ _ HB) as [HS _]. destruct (beam_parts _ _ _ _ _ _ _ _ _ HB') as [HS' _].
  destruct (solve_equations_sound _ _ _ _ _ _ _ _ SO HS) as (A1 & A2 & A3). destruct (solve_equations_sound _ _ _ _ _ _ _ _ SO HS') as (B1 & B2 & B3).
  assert (ST : stable (3 * j_n j' + 3) (jit_build (j_n j') k') (supports_of (j_r j') (j_U j'))).
  { apply (solve_equations_succeeds solve _ _ (j_F j') (j_U j') _ SO). eexists. exact HS'. }
  destruct (solution_unique _ _ (j_F j') _ d' Q' (ins3 m mid d) (ins3 m (fun _ => 0) Q) ST B1) as [V1 V2].
  - intros i Hi. change (j_n j') with (S (j_n j)) in *. destruct (node_cases m (j_n j) i HM Hi) as [(t & Ht & ->)|(a & t & Ha & Ht & ->)].
    + rewrite HI by lia. unfold j', insert_node. cbn [j_F]. rewrite !ins3_new by auto. ring.
    + pose proof (shift_le m (j_n j) a Ha) as SL. rewrite HI by auto. unfold j', insert_node. cbn [j_F]. rewrite !ins3_shift by auto. apply A1. lia.
  - exact B2.
  - intros i Hi Ri. change (j_n j') with (S (j_n j)) in *. unfold j', insert_node in Ri. cbn [j_r j_U] in Ri. rewrite supports_ins in Ri.
    destruct (node_cases m (j_n j) i HM Hi) as [(t & Ht & ->)|(a & t & Ha & Ht & ->)].
    + rewrite ins3_new by auto. reflexivity.
    + rewrite ins3_shift in Ri by auto. rewrite ins3_shift by auto. apply A2; [lia|auto].
  - intros i Hi Ri. rewrite B3 by auto. change (j_n j') with (S (j_n j)) in *. unfold j', insert_node in Ri |- *. cbn [j_r j_U] in Ri |- *. rewrite supports_ins in Ri.
    destruct (node_cases m (j_n j) i HM Hi) as [(t & Ht & ->)|(a & t & Ha & Ht & ->)].
    + rewrite ins3_new in Ri by auto. discriminate.
    + rewrite ins3_shift in Ri by auto. rewrite !ins3_shift by auto. rewrite A3; [reflexivity|lia|auto].
  - change (j_n j') with (S (j_n j)) in *. split.
    + intros a t Ha Ht. pose proof (shift_le m (j_n j) a Ha) as SL. rewrite (V1 (3 * shift m a + t)%nat), (V2 (3 * shift m a + t)%nat) by lia. rewrite !ins3_shift by auto. split; reflexivity.
    + intros t Ht. rewrite (V2 (3 * S m + t)%nat) by lia. rewrite ins3_new by auto. reflexivity.
Qed.

Lemma refines_analysed : forall solve ty c E nu j j' g d Q, solver_ok solve -> 0 < E -> -(3#4) <= nu ->
  analysed solve ty c E nu j d Q -> refines j j' g ->
  exists d' Q', analysed solve ty c E nu j' d' Q' /\
    forall a, (a <= j_n j)%nat -> (g a <= j_n j')%nat /\ j_z j' (g a) = j_z j a /\
      forall q, (q < 3)%nat -> d' (3 * g a + q)%nat == d (3 * a + q)%nat /\ Q' (3 * g a + q)%nat == Q (3 * a + q)%nat.
Proof.
  intros solve ty c E nu j j' g d Q SO HE HN HA HR. induction HR as [|j' g m x HR IH HM X1 X2].
  - exists d, Q. split; auto. intros a Ha. split; auto. split; [reflexivity|]. intros; split; reflexivity.
  - destruct IH as (d1 & Q1 & A1 & IH). destruct (insert_analysed _ _ _ _ _ _ _ _ _ _ SO HE HN A1 HM X1 X2) as (d2 & Q2 & A2 & B2 & _).
    exists d2, Q2. split; auto. intros a Ha. destruct (IH a Ha) as (G & Z & V). split; [apply shift_le; exact G|]. split; [cbn [insert_node j_z]; rewrite shift_z; exact Z|].
    intros q Hq. destruct (V q Hq) as [V1 V2]. destruct (B2 (g a) q G Hq) as [W1 W2]. rewrite W1, W2. auto.
Qed.

(** Results are determined by the job. *)
Lemma analysed_unique : forall solve ty c E nu j d Q d' Q', solver_ok solve -> analysed solve ty c E nu j d Q -> analysed solve ty c E nu j d' Q' ->
  veq (3 * j_n j + 3) d d' /\ veq (3 * j_n j + 3) Q Q'.
Proof.
  intros solve ty c E nu j d Q d' Q' SO (k & q & HP & HB) (k' & q' & HP' & HB').
  assert (EK : forall e, (e < j_n j)%nat -> k e = k' e).
  { intros e He. destruct (HP e He) as (_ & _ & _ & _ & K). destruct (HP' e He) as (_ & _ & _ & _ & K'). congruence. }
  destruct (beam_parts _ _ _ _ _ _ _ _ _ HB) as [HS _]. destruct (beam_parts _ _ _ _ _ _ _ _ _ HB') as [HS' _].
  destruct (solve_equations_sound _ _ _ _ _ _ _ _ SO HS) as (A1 & A2 & A3). destruct (solve_equations_sound _ _ _ _ _ _ _ _ SO HS') as (B1 & B2 & B3).
  assert (ST : stable (3 * j_n j + 3) (jit_build (j_n j) k) (supports_of (j_r j) (j_U j))).
  { apply (solve_equations_succeeds solve _ _ (j_F j) (j_U j) _ SO). eexists. exact HS. }
  apply (solution_unique _ _ (j_F j) _ d Q d' Q' ST); auto.
  - intros i Hi. rewrite <- B1 by auto. apply mulv_ext; [|reflexivity]. intros t Ht. unfold jit_build. apply sum_ext. intros e He. rewrite EK by auto. reflexivity.
  - intros i Hi Ri. rewrite A3, B3 by auto. reflexivity.
Qed.
