From Coq Require Import List Bool Arith ZArith QArith Qabs Lia Lqa Setoid.
From Verif Require Import Base LinAlg PileModel BeamModel BeamProofs SolveModel SolveSpec SolveProofs.
Import ListNotations.
Local Open Scope Q_scope.

(** ** Pairs of consecutive nodes *)

Lemma pair_up_dup : forall {A} (m : list A) a z,
  pair_up (a :: flat_map (fun x => [x; x]) m ++ [z]) = combine (a :: m) (m ++ [z]).
Proof.
  induction m as [|x m IH]; intros a z; [reflexivity|].
  cbn [flat_map app pair_up combine]. f_equal. apply IH.
Qed.

Lemma repeat_inner_shape : forall {A} (m : list A) a z,
  repeat_inner (a :: m ++ [z]) = a :: flat_map (fun x => [x; x]) m ++ [z].
Proof.
  intros A m a z. unfold repeat_inner, inner. cbn [rev tl].
  rewrite rev_app_distr. cbn [rev app]. rewrite removelast_last. reflexivity.
Qed.

Lemma list_ends : forall {A} (l : list A), (2 <= length l)%nat -> exists a m z, l = a :: m ++ [z].
Proof.
  intros A [|a t] H; [simpl in H; lia|]. destruct (@exists_last A t) as (m & z & ->).
  - destruct t; [simpl in H; lia|discriminate].
  - eauto.
Qed.

Lemma stacked_pairs : forall {A} (l : list A), (2 <= length l)%nat -> stacked l = combine l (tl l).
Proof.
  intros A l H. destruct (list_ends l H) as (a & m & z & ->). unfold stacked. rewrite repeat_inner_shape, pair_up_dup. cbn [tl].
  assert (C : forall (x y : list A) w, length x = length y -> combine (x ++ [w]) y = combine x y).
  { induction x as [|h x IH]; intros [|g y] w E; simpl in *; try lia; auto. f_equal. apply IH; lia. }
  symmetry. rewrite app_comm_cons. apply C. simpl. rewrite app_length. simpl. lia.
Qed.

Lemma combine_tl : forall {A} (f : nat -> A) n m, combine (map f (seq m (S n))) (tl (map f (seq m (S n)))) =
  map (fun i => (f i, f (S i))) (seq m n).
Proof.
  induction n as [|n IH]; intros m; [reflexivity|]. cbn [seq map tl combine]. f_equal. apply (IH (S m)).
Qed.

Lemma combine_map_seq : forall {A} (f : nat -> A) n m, combine (seq m n) (map f (seq m n)) = map (fun i => (i, f i)) (seq m n).
Proof. induction n as [|n IH]; intros m; [reflexivity|]. cbn [seq map combine]. f_equal. apply IH. Qed.

Lemma six_disp : forall u e i, (i < 6)%nat ->
  six ((u (3 * e)%nat, u (3 * e + 1)%nat, u (3 * e + 2)%nat), (u (3 * S e)%nat, u (3 * S e + 1)%nat, u (3 * S e + 2)%nat)) i = elem_disp u e i.
Proof.
  intros u e i H. unfold six, of_list, elem_disp.
  destruct i as [|[|[|[|[|[|]]]]]]; try lia; cbn [nth]; f_equal; lia.
Qed.

Definition elem_force (k : nat -> mat) (u : vec) (e : nat) : vec := fun i =>
  -(1) * mulv 6 (k e) (six ((u (3 * e)%nat, u (3 * e + 1)%nat, u (3 * e + 2)%nat), (u (3 * S e)%nat, u (3 * S e + 1)%nat, u (3 * S e + 2)%nat))) i.

Lemma internal_forces_list : forall n k u, (1 <= n)%nat ->
  pile_internal_forces (S n) k u = map (elem_force k u) (seq 0 n).
Proof.
  intros n k u H. unfold pile_internal_forces. rewrite stacked_pairs.
  - unfold node_rows. rewrite combine_tl. replace (S n - 1)%nat with n by lia. rewrite combine_map_seq, map_map. reflexivity.
  - unfold node_rows. rewrite map_length, seq_length. lia.
Qed.

Lemma elem_force_disp : forall k u e i, elem_force k u e i == - mulv 6 (k e) (elem_disp u e) i.
Proof.
  intros. unfold elem_force. rewrite (mulv_ext 6 (k e) (k e) _ (elem_disp u e)).
  - ring.
  - intros; reflexivity.
  - intros j Hj. rewrite six_disp by auto. reflexivity.
Qed.

Lemma internal_forces_elements : forall n k u, (1 <= n)%nat ->
  length (pile_internal_forces (S n) k u) = n /\
  forall e i, (e < n)%nat -> nth e (pile_internal_forces (S n) k u) (fun _ => 0) i == - mulv 6 (k e) (elem_disp u e) i.
Proof.
  intros n k u H. rewrite internal_forces_list by auto. split; [rewrite map_length, seq_length; auto|].
  intros e i He. rewrite (nth_indep _ _ (elem_force k u O)) by (rewrite map_length, seq_length; auto).
  rewrite map_nth, seq_nth by auto. apply elem_force_disp.
Qed.

Lemma scatter_opp : forall e q q' g, (forall i, (i < 6)%nat -> q i == - q' i) -> scatter e q g == - scatter e q' g.
Proof.
  intros e q q' g H. unfold scatter. destruct ((3 * e <=? g) && (g <? 3 * e + 6))%nat eqn:E; [|ring].
  apply andb_prop in E. destruct E as [A B]. apply Nat.leb_le in A. apply Nat.ltb_lt in B. apply H. lia.
Qed.

Lemma sum_opp : forall n f, sum n (fun i => - f i) == - sum n f.
Proof. induction n as [|n IH]; intros; simpl; [ring|]. rewrite IH. ring. Qed.

Lemma node_balance : forall n k u g, (1 <= n)%nat ->
  sum n (fun e => scatter e (nth e (pile_internal_forces (S n) k u) (fun _ => 0)) g) ==
  - mulv (3 * n + 3) (jit_build n k) u g.
Proof.
  intros n k u g H. rewrite build_mulv, <- sum_opp. apply sum_ext. intros e He. apply scatter_opp.
  intros i Hi. apply internal_forces_elements; auto.
Qed.

(** ** Method of sections *)

Section Sections.
Variables (n : nat) (k : nat -> mat) (z : nat -> Q) (u : vec).
Hypothesis HK : forall e, (e < n)%nat -> elem_equilibrium (z e - z (S e)) (k e).
Let R := mulv (3 * n + 3) (jit_build n k) u.
Let f e := mulv 6 (k e) (elem_disp u e).

Lemma net_force : forall a c, (a <= n)%nat -> (c < 3)%nat ->
  R (3 * a + c)%nat == (if (a <? n)%nat then f a c else 0) + (match a with O => 0 | S b => f b (3 + c)%nat end).
Proof.
  intros a c Ha Hc. unfold R. rewrite build_mulv. fold f.
  assert (P : forall m, (m <= n)%nat -> sum m (fun e => scatter e (f e) (3 * a + c)) ==
     (if (a <? m)%nat then f a c else 0) + (match a with O => 0 | S b => if (b <? m)%nat then f b (3 + c)%nat else 0 end)).
  { induction m as [|m IH]; intros Hm.
    - simpl. destruct a; simpl; ring.
    - cbn [sum]. rewrite IH by lia. unfold scatter.
      destruct (Nat.eq_dec m a) as [->|N1].
      + rewrite (proj2 (Nat.leb_le (3 * a) (3 * a + c))), (proj2 (Nat.ltb_lt (3 * a + c) (3 * a + 6))) by lia. cbn [andb].
        rewrite (proj2 (Nat.ltb_ge a a)), (proj2 (Nat.ltb_lt a (S a))) by lia.
        replace (3 * a + c - 3 * a)%nat with c by lia.
        destruct a as [|b]; [ring|]. rewrite (proj2 (Nat.ltb_lt b (S b))), (proj2 (Nat.ltb_lt b (S (S b)))) by lia. ring.
      + destruct (Nat.eq_dec (S m) a) as [<-|N2].
        * rewrite (proj2 (Nat.leb_le (3 * m) (3 * S m + c))), (proj2 (Nat.ltb_lt (3 * S m + c) (3 * m + 6))) by lia. cbn [andb].
          rewrite (proj2 (Nat.ltb_ge (S m) m)), (proj2 (Nat.ltb_ge (S m) (S m))), (proj2 (Nat.ltb_ge m m)), (proj2 (Nat.ltb_lt m (S m))) by lia.
          replace (3 * S m + c - 3 * m)%nat with (3 + c)%nat by lia. ring.
        * assert (X : ((3 * m <=? 3 * a + c) && (3 * a + c <? 3 * m + 6))%nat = false).
          { apply andb_false_iff. destruct (Nat.lt_ge_cases a m); [left; apply Nat.leb_gt; lia|right; apply Nat.ltb_ge; lia]. }
          rewrite X.
          assert (Y : (a <? S m)%nat = (a <? m)%nat).
          { destruct (Nat.ltb_spec a m), (Nat.ltb_spec a (S m)); auto; lia. }
          rewrite Y. destruct a as [|b]; [ring|].
          assert (W : (b <? S m)%nat = (b <? m)%nat).
          { destruct (Nat.ltb_spec b m), (Nat.ltb_spec b (S m)); auto; lia. }
          rewrite W. ring. }
  pose proof (P n (Nat.le_refl n)) as PN. etransitivity; [exact PN|]. destruct a as [|b]; [reflexivity|]. rewrite (proj2 (Nat.ltb_lt b n)) by lia. reflexivity.
Qed.

Lemma sections : forall e, (e < n)%nat ->
  f e 0%nat == axial_above R e /\ f e 1%nat == shear_above R e /\ f e 2%nat == moment_above z R e (z e).
Proof.
  induction e as [|e IH]; intros He.
  - unfold axial_above, shear_above, moment_above. cbn [sum].
    split; [|split].
    + rewrite (net_force 0 0) by lia. rewrite (proj2 (Nat.ltb_lt 0 n)) by lia. ring.
    + rewrite (net_force 0 1) by lia. rewrite (proj2 (Nat.ltb_lt 0 n)) by lia. ring.
    + rewrite (net_force 0 2) by lia. rewrite (proj2 (Nat.ltb_lt 0 n)) by lia. ring.
  - destruct (IH ltac:(lia)) as (A & B & C). destruct (HK e ltac:(lia) (elem_disp u e)) as (E0 & E1 & E2). fold (f e) in E0, E1, E2.
    assert (N : forall c, (c < 3)%nat -> R (3 * S e + c)%nat == f (S e) c + f e (3 + c)%nat).
    { intros c Hc. rewrite (net_force (S e) c) by lia. rewrite (proj2 (Nat.ltb_lt (S e) n)) by lia. reflexivity. }
    pose proof (N 0%nat ltac:(lia)) as N0. pose proof (N 1%nat ltac:(lia)) as N1. pose proof (N 2%nat ltac:(lia)) as N2.
    rewrite Nat.add_0_r in N0. cbn [Nat.add] in E0, E1, E2, N0, N1, N2.
    unfold axial_above, shear_above in *. 
    split; [|split].
    + change (f (S e) 0%nat == sum (S e) (fun a => R (3 * a)%nat) + R (3 * S e)%nat). lra.
    + change (f (S e) 1%nat == sum (S e) (fun a => R (3 * a + 1)%nat) + R (3 * S e + 1)%nat). lra.
    + unfold moment_above in *.
      change (f (S e) 2%nat == sum (S e) (fun a => R (3 * a + 2)%nat - (z a - z (S e)) * R (3 * a + 1)%nat) + (R (3 * S e + 2)%nat - (z (S e) - z (S e)) * R (3 * S e + 1)%nat)).
      rewrite (sum_ext (S e) _ (fun a => (R (3 * a + 2)%nat - (z a - z e) * R (3 * a + 1)%nat) - (z e - z (S e)) * R (3 * a + 1)%nat)) by (intros; ring).
      rewrite sum_minus, sum_scale, <- C, <- B, N2.
      assert (F5 : f e 5%nat == (z e - z (S e)) * f e 1%nat - f e 2%nat).
      { assert (F4 : f e 4%nat == - f e 1%nat) by lra. rewrite F4 in E2. lra. }
      rewrite F5. ring.
Qed.
End Sections.

(** ** The force table *)

Lemma repeat_inner_nth : forall {A} (l : list A) d n e, length l = S n -> (e < n)%nat ->
  nth (2 * e) (repeat_inner l) d = nth e l d /\ nth (2 * e + 1) (repeat_inner l) d = nth (S e) l d.
Proof.
  intros A l d n e H He. destruct (list_ends l) as (a & m & zz & ->); [lia|]. rewrite repeat_inner_shape.
  cbn [length] in H. rewrite app_length in H. cbn [length] in H. assert (L : length m = (n - 1)%nat) by lia. clear H.
  revert a n e He L. induction m as [|x m IH]; intros a n e He L; cbn [length] in L.
  - assert (e = 0%nat) by lia. subst. split; reflexivity.
  - destruct e as [|e]; [split; reflexivity|].
    destruct (IH x (n - 1)%nat e ltac:(lia) ltac:(lia)) as [P1 P2].
    replace (2 * S e)%nat with (S (S (2 * e))) by lia. replace (S (S (2 * e)) + 1)%nat with (S (S (2 * e + 1))) by lia.
    cbn [nth flat_map app]. split; [exact P1|exact P2].
Qed.

Lemma flat2_length : forall {A B} (g : A -> list B) l, (forall x, length (g x) = 2%nat) -> length (flat_map g l) = (2 * length l)%nat.
Proof. intros A B g l H. induction l as [|x l IH]; [reflexivity|]. cbn [flat_map length]. rewrite app_length, H, IH. lia. Qed.

Lemma repeat_inner_length : forall {A} (l : list A) n, length l = S n -> (1 <= n)%nat -> length (repeat_inner l) = (2 * n)%nat.
Proof.
  intros A l n H Hn. destruct (list_ends l) as (a & m & zz & ->); [lia|]. rewrite repeat_inner_shape. cbn [length].
  rewrite app_length. cbn [length]. rewrite flat2_length.
  - cbn [length] in H. rewrite app_length in H. cbn [length] in H. lia.
  - reflexivity.
Qed.

Lemma flat_pairs_nth : forall {A B} (g : A -> list B) a b (l : list A) d dA e, (forall x, g x = [a x; b x]) -> (e < length l)%nat ->
  nth (2 * e) (flat_map g l) d = a (nth e l dA) /\ nth (2 * e + 1) (flat_map g l) d = b (nth e l dA).
Proof.
  intros A B g a b l. induction l as [|x l IH]; intros d dA e G H; [simpl in H; lia|].
  cbn [flat_map]. rewrite G. destruct e as [|e]; [split; reflexivity|].
  destruct (IH d dA e G ltac:(simpl in H; lia)) as [P1 P2].
  replace (2 * S e)%nat with (S (S (2 * e))) by lia. replace (S (S (2 * e)) + 1)%nat with (S (S (2 * e + 1))) by lia.
  cbn [nth app]. split; assumption.
Qed.

Definition no_row : Q * (Q * Q * Q) := (0, (0, 0, 0)).

Lemma force_table : forall n k z u, (1 <= n)%nat -> length z = S n ->
  (forall e, (e < n)%nat -> elem_equilibrium (nth e z 0 - nth (S e) z 0) (k e)) ->
  let R := mulv (3 * n + 3) (jit_build n k) u in
  let T := structural_forces z (pile_internal_forces (S n) k u) (map (fun e => nth e z 0 - nth (S e) z 0) (seq 0 n)) in
  length T = (2 * n)%nat /\
  forall e, (e < n)%nat ->
    fst (nth (2 * e) T no_row) = nth e z 0 /\ fst (nth (2 * e + 1) T no_row) = nth (S e) z 0 /\
    eq3 (snd (nth (2 * e) T no_row))
        (axial_above R e, shear_above R e, moment_above (fun a => nth a z 0) R e (nth e z 0)) /\
    eq3 (snd (nth (2 * e + 1) T no_row))
        (axial_above R e, shear_above R e, moment_above (fun a => nth a z 0) R e (nth (S e) z 0)).
Proof.
  intros n k z u Hn Hz HK R T.
  set (Ls := map (fun e => nth e z 0 - nth (S e) z 0) (seq 0 n)) in *.
  assert (LL : length Ls = n) by (unfold Ls; rewrite map_length, seq_length; auto).
  destruct (internal_forces_elements n k u Hn) as [LQ EQ].
  set (q := pile_internal_forces (S n) k u) in *.
  assert (LC : length (combine q Ls) = n) by (rewrite combine_length; lia).
  assert (LF : length (flat_map (fun ql => force_rows (fst ql) (snd ql)) (combine q Ls)) = (2 * n)%nat).
  { rewrite flat2_length; [lia|reflexivity]. }
  assert (LT : length T = (2 * n)%nat).
  { unfold T, structural_forces. rewrite combine_length, LF, (repeat_inner_length z n); auto. lia. }
  split; auto. intros e He.
  assert (NT : forall p, nth p T no_row = (nth p (repeat_inner z) 0, nth p (flat_map (fun ql => force_rows (fst ql) (snd ql)) (combine q Ls)) (0, 0, 0))).
  { intros p. unfold T, structural_forces, no_row. apply combine_nth. rewrite LF. apply repeat_inner_length; auto. }
  rewrite !NT. cbn [fst snd].
  destruct (repeat_inner_nth z 0 n e Hz He) as [-> ->].
  destruct (flat_pairs_nth (fun ql => force_rows (fst ql) (snd ql)) (fun ql => (- fst ql 0%nat, - fst ql 1%nat, - fst ql 2%nat))
      (fun ql => (fst ql 3%nat, fst ql 4%nat, - fst ql 2%nat + snd ql * fst ql 1%nat)) (combine q Ls) (0, 0, 0) ((fun _ => 0) : vec, 0) e) as [-> ->];
    [reflexivity|lia|].
  rewrite (combine_nth (A := vec) q Ls e (fun _ => 0) 0) by (transitivity n; auto). cbn [fst snd].
  assert (NL : nth e Ls 0 = nth e z 0 - nth (S e) z 0).
  { unfold Ls. set (h := fun e0 : nat => nth e0 z 0 - nth (S e0) z 0). rewrite (nth_indep _ 0 (h O)) by (rewrite map_length, seq_length; auto).
    rewrite map_nth, seq_nth by auto. reflexivity. }
  rewrite NL.
  destruct (sections n k (fun a => nth a z 0) u HK e He) as (A & B & C). fold R in A, B, C.
  destruct (HK e He (elem_disp u e)) as (E0 & E1 & E2).
  pose proof (EQ e) as EE. cbv beta in A, B, C.
  split; [reflexivity|]. split; [reflexivity|]. unfold eq3. rewrite !(fun i => EE i He).
  split.
  - rewrite A, B, C. repeat split; ring.
  - split; [|split].
    + rewrite <- A. lra.
    + rewrite <- B. lra.
    + rewrite B, C. unfold moment_above, shear_above.
      rewrite (sum_ext (S e) (fun a => R (3 * a + 2)%nat - (nth a z 0 - nth (S e) z 0) * R (3 * a + 1)%nat)
        (fun a => (R (3 * a + 2)%nat - (nth a z 0 - nth e z 0) * R (3 * a + 1)%nat) - (nth e z 0 - nth (S e) z 0) * R (3 * a + 1)%nat)) by (intros; ring).
      rewrite (sum_minus (S e) (fun a => R (3 * a + 2)%nat - (nth a z 0 - nth e z 0) * R (3 * a + 1)%nat)
        (fun a => (nth e z 0 - nth (S e) z 0) * R (3 * a + 1)%nat)), sum_scale. ring.
Qed.

(** ** Stability of a beam *)

Section Stability.
Variables (n : nat) (k : nat -> mat) (z : nat -> Q) (r : nat -> bool).
Hypothesis HK : forall e, (e < n)%nat -> elem_deforms (z e - z (S e)) (k e).
Hypothesis HZ : forall e, (e < n)%nat -> z (S e) < z e.
Let N := (3 * n + 3)%nat.
Let K := jit_build n k.

Lemma undeformed : forall v, energy N K v == 0 -> forall e, (e < n)%nat -> energy 6 (k e) (elem_disp v e) == 0.
Proof.
  intros v H. unfold N, K in H. rewrite build_energy in H.
  assert (P : forall m, (m <= n)%nat -> sum m (fun e => energy 6 (k e) (elem_disp v e)) == 0 -> forall e, (e < m)%nat -> energy 6 (k e) (elem_disp v e) == 0).
  { induction m as [|m IH]; intros Hm S0 e He; [lia|]. cbn [sum] in S0.
    assert (A : 0 <= sum m (fun e => energy 6 (k e) (elem_disp v e))).
    { apply sum_nonneg. intros i Hi. apply HK. lia. }
    assert (B : 0 <= energy 6 (k m) (elem_disp v m)) by (apply HK; lia).
    destruct (Nat.eq_dec e m) as [->|]; [lra|]. apply IH; try lia; lra. }
  apply P; auto.
Qed.

Lemma undeformed_rigid : forall v, energy N K v == 0 -> forall a, (a <= n)%nat ->
  v (3 * a)%nat == v 0%nat /\ v (3 * a + 1)%nat == v 1%nat + v 2%nat * (z 0%nat - z a) /\ v (3 * a + 2)%nat == v 2%nat.
Proof.
  intros v H. induction a as [|a IH]; intros Ha.
  - simpl. repeat split; ring.
  - destruct (IH ltac:(lia)) as (A & B & C). pose proof (undeformed v H a ltac:(lia)) as E0.
    destruct (HK a ltac:(lia)) as (_ & _ & _ & D). destruct (D _ E0) as (D1 & D2 & D3). unfold elem_disp in D1, D2, D3.
    replace (3 * S a)%nat with (3 * a + 3)%nat by lia. replace (3 * a + 3 + 1)%nat with (3 * a + 4)%nat by lia.
    replace (3 * a + 3 + 2)%nat with (3 * a + 5)%nat by lia. rewrite Nat.add_0_r in D1.
    repeat split; [lra| |lra]. rewrite D3, B, C. ring.
Qed.

Lemma z_antitone : forall b a, (a < b)%nat -> (b <= n)%nat -> z b < z a.
Proof.
  induction b as [|b IH]; intros a H Hb; [lia|]. pose proof (HZ b ltac:(lia)).
  destruct (Nat.eq_dec a b) as [->|]; [auto|]. specialize (IH a ltac:(lia) ltac:(lia)). lra.
Qed.

Lemma z_distinct : forall a b, a <> b -> (a <= n)%nat -> (b <= n)%nat -> ~ z a == z b.
Proof.
  intros a b D Ha Hb E. destruct (Nat.lt_ge_cases a b).
  - pose proof (z_antitone b a ltac:(lia) ltac:(lia)). lra.
  - pose proof (z_antitone a b ltac:(lia) ltac:(lia)). lra.
Qed.

Lemma dof_cases : forall i, (i < N)%nat -> exists a c, (a <= n)%nat /\ (c < 3)%nat /\ i = (3 * a + c)%nat.
Proof.
  intros i Hi. exists (i / 3)%nat, (i mod 3)%nat. pose proof (Nat.div_mod i 3 ltac:(lia)). pose proof (Nat.mod_upper_bound i 3 ltac:(lia)).
  repeat split; auto. unfold N in Hi. lia.
Qed.

Lemma held_rigid_zero : held n r -> forall v, (forall i, (i < N)%nat -> r i = true -> v i == 0) -> energy N K v == 0 -> forall i, (i < N)%nat -> v i == 0.
Proof.
  intros [(a0 & Ha0 & R0) (a1 & Ha1 & R1 & HB)] v V0 E0 i Hi.
  pose proof (undeformed_rigid v E0) as U.
  assert (V : v 0%nat == 0).
  { destruct (U a0 Ha0) as (A & _). rewrite <- A. apply V0; auto. unfold N; lia. }
  assert (Y : v 1%nat + v 2%nat * (z 0%nat - z a1) == 0).
  { destruct (U a1 Ha1) as (_ & A & _). rewrite <- A. apply V0; auto. unfold N; lia. }
  assert (T : v 2%nat == 0).
  { destruct HB as [(b & Hb & Rb)|(b & Hb & NE & Rb)].
    - destruct (U b Hb) as (_ & _ & A). rewrite <- A. apply V0; auto. unfold N; lia.
    - destruct (U b Hb) as (_ & A & _). assert (Y2 : v 1%nat + v 2%nat * (z 0%nat - z b) == 0).
      { rewrite <- A. apply V0; auto. unfold N; lia. }
      assert (P : v 2%nat * (z a1 - z b) == 0) by lra. apply Qmult_integral in P. destruct P as [P|P]; auto.
      exfalso. apply (z_distinct a1 b); auto. lra. }
  assert (W : v 1%nat == 0) by (rewrite T in Y; lra).
  destruct (dof_cases i Hi) as (a & c & Ha & Hc & ->). destruct (U a Ha) as (A & B & C).
  destruct c as [|[|[|]]]; try lia.
  - rewrite Nat.add_0_r, A. auto.
  - rewrite B, W, T. ring.
  - rewrite C. auto.
Qed.

Lemma held_stable : held n r -> stable N K r.
Proof.
  intros HL v V0 KV. apply held_rigid_zero; auto.
  unfold energy, dot. apply sum_zero. intros j Hj. destruct (r j) eqn:Rj; [rewrite V0 by auto|rewrite KV by auto]; ring.
Qed.

Lemma rigid_at : forall a v t b c, (c < 3)%nat ->
  rigid z a v t (3 * b + c)%nat = match c with O => a | 1%nat => v + t * (z O - z b) | _ => t end.
Proof.
  intros a v t b c Hc. unfold rigid.
  assert (M : ((3 * b + c) mod 3 = c)%nat) by (rewrite Nat.add_comm, Nat.mul_comm, Nat.mod_add by lia; apply Nat.mod_small; auto).
  assert (D : ((3 * b + c) / 3 = b)%nat) by (rewrite Nat.add_comm, Nat.mul_comm, Nat.div_add by lia; rewrite Nat.div_small; auto).
  rewrite M, D. reflexivity.
Qed.

Lemma rigid_null : forall a v t i, mulv N K (rigid z a v t) i == 0.
Proof.
  intros. apply build_rigid. intros e a' v' t' j He Hj. destruct (HK e He) as (_ & _ & D & _). apply D; auto.
Qed.

Lemma search : forall (P : nat -> bool), (exists a, (a <= n)%nat /\ P a = true) \/ (forall a, (a <= n)%nat -> P a = false).
Proof.
  intros P. destruct (existsb P (seq 0 (S n))) eqn:E.
  - left. apply existsb_exists in E. destruct E as (a & I & H). apply in_seq in I. exists a. split; auto. lia.
  - right. intros a Ha. apply (existsb_none (S n) P E). lia.
Qed.

Lemma stable_held : stable N K r -> held n r.
Proof.
  intros ST.
  assert (F : forall a v t, (forall b c, (b <= n)%nat -> (c < 3)%nat -> r (3 * b + c)%nat = true -> rigid z a v t (3 * b + c)%nat == 0) ->
     forall i, (i < N)%nat -> rigid z a v t i == 0).
  { intros a v t H. apply ST.
    - intros i Hi Ri. destruct (dof_cases i Hi) as (b & c & Hb & Hc & ->). apply H; auto.
    - intros i Hi _. apply rigid_null. }
  assert (H1 : exists a, (a <= n)%nat /\ r (3 * a)%nat = true).
  { destruct (search (fun a => r (3 * a)%nat)) as [H|H]; auto. exfalso.
    assert (X : rigid z 1 0 0 0%nat == 0).
    { apply F; [|unfold N; lia]. intros b c Hb Hc Rb. rewrite rigid_at by auto. destruct c as [|[|[|]]]; try lia; [|ring|ring].
      rewrite Nat.add_0_r in Rb. rewrite H in Rb by auto. discriminate. }
    discriminate X. }
  split; auto.
  destruct (search (fun a => r (3 * a + 1)%nat)) as [(a & Ha & Ra)|H].
  - exists a. split; auto. split; auto.
    destruct (search (fun b => r (3 * b + 2)%nat)) as [H|H2]; auto. right.
    destruct (search (fun b => negb (Nat.eqb b a) && r (3 * b + 1)%nat)) as [(b & Hb & Rb)|H3].
    + apply andb_prop in Rb. destruct Rb as [NB Rb]. exists b. repeat split; auto. apply negb_true_iff, Nat.eqb_neq in NB. auto.
    + exfalso. assert (X : rigid z 0 (z a - z 0%nat) 1 2%nat == 0).
      { apply F; [|unfold N; lia]. intros b c Hb Hc Rb. rewrite rigid_at by auto. destruct c as [|[|[|]]]; try lia; [ring| |].
        - specialize (H3 b Hb). rewrite Rb, andb_true_r in H3. apply negb_false_iff, Nat.eqb_eq in H3. subst. ring.
        - rewrite H2 in Rb by auto. discriminate. }
      discriminate X.
  - exfalso. assert (X : rigid z 0 1 0 1%nat == 0).
    { apply F; [|unfold N; lia]. intros b c Hb Hc Rb. rewrite rigid_at by auto. destruct c as [|[|[|]]]; try lia; [ring| |ring].
      rewrite H in Rb by auto. discriminate. }
    unfold rigid in X. cbn in X. discriminate X.
Qed.
End Stability.

Lemma beam_succeeds : forall solve n k z F U restrained, solver_ok solve ->
  (forall e, (e < n)%nat -> elem_deforms (z e - z (S e)) (k e)) -> (forall e, (e < n)%nat -> z (S e) < z e) ->
  ((exists R, beam solve n k F U restrained = Some R) <-> held n (supports_of restrained U)).
Proof.
  intros solve n k z F U restrained SO HK HZ. unfold beam.
  assert (E : held n (supports_of restrained U) <-> stable (3 * n + 3) (jit_build n k) (supports_of restrained U)).
  { split; [apply held_stable with (z := z)|apply stable_held with (z := z)]; auto. }
  rewrite E, <- (solve_equations_succeeds solve (3 * n + 3) (jit_build n k) F U (supports_of restrained U) SO).
  destruct (solve_equations _ _ _ _ _ _) as [r|]; cbn [option_map]; split; intros [x H]; try discriminate H; eexists; reflexivity.
Qed.

Lemma beam_parts : forall solve n k F U restrained d Q q, beam solve n k F U restrained = Some (d, Q, q) ->
  solve_equations solve (3 * n + 3) (jit_build n k) F U (supports_of restrained U) = Some (d, Q) /\ q = pile_internal_forces (S n) k d.
Proof.
  intros solve n k F U restrained d Q q H. unfold beam in H.
  destruct (solve_equations _ _ _ _ _ _) as [[d' Q']|]; [|discriminate]. cbn [option_map fst snd] in H.
  inversion H; subst. split; reflexivity.
Qed.

Lemma above_ext : forall R R' n, (forall i, (i < 3 * n + 3)%nat -> R i == R' i) -> forall e z at_z, (e <= n)%nat ->
  axial_above R e == axial_above R' e /\ shear_above R e == shear_above R' e /\ moment_above z R e at_z == moment_above z R' e at_z.
Proof.
  intros R R' n H e z at_z He. unfold axial_above, shear_above, moment_above.
  split; [|split]; apply sum_ext; intros a Ha; rewrite !H by lia; reflexivity.
Qed.

Lemma eq3_trans_r : forall p a b c a' b' c', eq3 p (a, b, c) -> a == a' -> b == b' -> c == c' -> eq3 p (a', b', c').
Proof. intros [[x y] w] a b c a' b' c' (H1 & H2 & H3) A B C. unfold eq3. rewrite H1, H2, H3. auto. Qed.

Lemma beam_force_table : forall solve n k z F U restrained d Q q, solver_ok solve -> (1 <= n)%nat -> length z = S n ->
  (forall e, (e < n)%nat -> elem_equilibrium (nth e z 0 - nth (S e) z 0) (k e)) ->
  beam solve n k F U restrained = Some (d, Q, q) ->
  let R := fun i => F i + Q i in
  let T := structural_forces z q (map (fun e => nth e z 0 - nth (S e) z 0) (seq 0 n)) in
  length T = (2 * n)%nat /\
  forall e, (e < n)%nat ->
    fst (nth (2 * e) T no_row) = nth e z 0 /\ fst (nth (2 * e + 1) T no_row) = nth (S e) z 0 /\
    eq3 (snd (nth (2 * e) T no_row))
        (axial_above R e, shear_above R e, moment_above (fun a => nth a z 0) R e (nth e z 0)) /\
    eq3 (snd (nth (2 * e + 1) T no_row))
        (axial_above R e, shear_above R e, moment_above (fun a => nth a z 0) R e (nth (S e) z 0)).
Proof.
  intros solve n k z F U restrained d Q q SO Hn Hz HK H R T.
  destruct (beam_parts _ _ _ _ _ _ _ _ _ H) as [HS ->].
  destruct (solve_equations_sound _ _ _ _ _ _ _ _ SO HS) as (A & _ & _).
  destruct (force_table n k z d Hn Hz HK) as [LT TT]. fold T in LT, TT. split; auto.
  intros e He. destruct (TT e He) as (P1 & P2 & P3 & P4). split; auto. split; auto.
  destruct (above_ext _ R n A e (fun a => nth a z 0) (nth e z 0) ltac:(lia)) as (X1 & X2 & X3).
  destruct (above_ext _ R n A e (fun a => nth a z 0) (nth (S e) z 0) ltac:(lia)) as (_ & _ & X4).
  split; [apply (eq3_trans_r _ _ _ _ _ _ _ P3)|apply (eq3_trans_r _ _ _ _ _ _ _ P4)]; auto.
Qed.

(** Overall equilibrium: loads and reactions balance. *)
Lemma global_equilibrium : forall n k z u, (1 <= n)%nat ->
  (forall e, (e < n)%nat -> elem_equilibrium (z e - z (S e)) (k e)) ->
  let R := mulv (3 * n + 3) (jit_build n k) u in
  axial_above R n == 0 /\ shear_above R n == 0 /\ forall at_z, moment_above z R n at_z == 0.
Proof.
  intros n k z u Hn HK R. destruct n as [|m]; [lia|].
  destruct (sections (S m) k z u HK m ltac:(lia)) as (A & B & C). fold R in A, B, C.
  destruct (HK m ltac:(lia) (elem_disp u m)) as (E0 & E1 & E2).
  assert (N : forall c, (c < 3)%nat -> R (3 * S m + c)%nat == mulv 6 (k m) (elem_disp u m) (3 + c)%nat).
  { intros c Hc. unfold R. rewrite (net_force (S m) k u (S m) c) by lia. rewrite (proj2 (Nat.ltb_ge (S m) (S m))) by lia. ring. }
  pose proof (N 0%nat ltac:(lia)) as N0. pose proof (N 1%nat ltac:(lia)) as N1. pose proof (N 2%nat ltac:(lia)) as N2. rewrite Nat.add_0_r in N0.
  cbn [Nat.add] in N0, N1, N2.
  assert (SA : axial_above R (S m) == 0).
  { change (sum (S m) (fun a => R (3 * a)%nat) + R (3 * S m)%nat == 0). unfold axial_above in A. lra. }
  assert (SB : shear_above R (S m) == 0).
  { change (sum (S m) (fun a => R (3 * a + 1)%nat) + R (3 * S m + 1)%nat == 0). unfold shear_above in B. lra. }
  split; auto. split; auto.
  assert (SC : moment_above z R (S m) (z (S m)) == 0).
  { unfold moment_above in *.
    change (sum (S m) (fun a => R (3 * a + 2)%nat - (z a - z (S m)) * R (3 * a + 1)%nat) + (R (3 * S m + 2)%nat - (z (S m) - z (S m)) * R (3 * S m + 1)%nat) == 0).
    rewrite (sum_ext (S m) _ (fun a => (R (3 * a + 2)%nat - (z a - z m) * R (3 * a + 1)%nat) - (z m - z (S m)) * R (3 * a + 1)%nat)) by (intros; ring).
    rewrite sum_minus, sum_scale, <- C. unfold shear_above in B. rewrite <- B, N2.
    assert (F4 : mulv 6 (k m) (elem_disp u m) 4%nat == - mulv 6 (k m) (elem_disp u m) 1%nat) by lra. rewrite F4 in E2. lra. }
  intros at_z. unfold moment_above in *.
  rewrite (sum_ext (S (S m)) _ (fun a => (R (3 * a + 2)%nat - (z a - z (S m)) * R (3 * a + 1)%nat) - (z (S m) - at_z) * R (3 * a + 1)%nat)) by (intros; ring).
  rewrite sum_minus, sum_scale, SC. unfold shear_above in SB. rewrite SB. ring.
Qed.

(** ** Tables *)

Lemma big_mask : forall q, big (mask q) = big q.
Proof.
  intros q. unfold mask. destruct (Qltb (Qabs q) (1#1000)) eqn:E; auto. unfold big.
  apply Qltb_true in E. symmetry. apply not_true_is_false. intro H. apply Qltb_true in H. lra.
Qed.

Definition masked (r : Q * triple) : Q * triple := let '(z, (a, b, c)) := r in (z, (mask a, mask b, mask c)).
Definition shown (r : Q * triple) : bool := let '(_, (a, b, c)) := r in big a || big b || big c.

Lemma reaction_table : forall rows, reaction_rows rows = map masked (filter shown rows).
Proof.
  intros rows. unfold reaction_rows. induction rows as [|[z [[a b] c]] t IH]; [reflexivity|].
  cbn [map filter shown]. rewrite !big_mask. destruct (big a || big b || big c); cbn [map masked]; rewrite IH; reflexivity.
Qed.

Lemma shown_iff : forall z a b c, shown (z, (a, b, c)) = true <-> (1#1000) < Qabs a \/ (1#1000) < Qabs b \/ (1#1000) < Qabs c.
Proof. intros. unfold shown, big. rewrite !orb_true_iff, !Qltb_true. tauto. Qed.

Lemma mask_value : forall q, (Qabs q < 1#1000 -> mask q = 0) /\ ((1#1000) <= Qabs q -> mask q = q).
Proof.
  intros q. unfold mask. split; intro H.
  - apply Qltb_true in H. rewrite H. reflexivity.
  - apply Qltb_false in H. rewrite H. reflexivity.
Qed.

(** ** Real pile elements *)

Lemma mech_element_ok : forall ty c E nu I A d wt L k, 0 < E -> -(3#4) <= nu -> 0 < I -> 0 < A -> 0 < d -> 0 < L ->
  elem_mech ty c E nu I A d wt L = Ok k -> elem_deforms L k /\ elem_equilibrium L k.
Proof.
  intros ty c E nu I A d wt L k HE Hn HI HA Hd HL H.
  destruct (elem_mech_sound ty c E nu I A d wt L k HE Hn HI HA Hd HL H) as (P1 & P2 & P3 & P4 & P5).
  split; [exact (conj P1 (conj P2 (conj P3 P4)))|exact P5].
Qed.

Lemma pile_beam_succeeds : forall solve n ty c E nu I A d wt z k F U restrained, solver_ok solve -> 0 < E -> -(3#4) <= nu ->
  (forall e, (e < n)%nat -> 0 < I e /\ 0 < A e /\ 0 < d e /\ z (S e) < z e /\
     elem_mech ty c E nu (I e) (A e) (d e) (wt e) (z e - z (S e)) = Ok (k e)) ->
  ((exists R, beam solve n k F U restrained = Some R) <-> held n (supports_of restrained U)).
Proof.
  intros solve n ty c E nu I A d wt z k F U restrained SO HE Hn H. apply beam_succeeds with (z := z); auto.
  - intros e He. destruct (H e He) as (H1 & H2 & H3 & H4 & H5).
    apply Qlt_minus_iff in H4. exact (proj1 (mech_element_ok _ _ _ _ _ _ _ _ _ _ HE Hn H1 H2 H3 H4 H5)).
  - intros e He. apply H; auto.
Qed.

Lemma pile_force_table : forall solve n ty c E nu I A dd wt z k F U restrained d Q q, solver_ok solve -> 0 < E -> -(3#4) <= nu ->
  (1 <= n)%nat -> length z = S n ->
  (forall e, (e < n)%nat -> 0 < I e /\ 0 < A e /\ 0 < dd e /\ nth (S e) z 0 < nth e z 0 /\
     elem_mech ty c E nu (I e) (A e) (dd e) (wt e) (nth e z 0 - nth (S e) z 0) = Ok (k e)) ->
  beam solve n k F U restrained = Some (d, Q, q) ->
  let R := fun i => F i + Q i in
  let T := structural_forces z q (map (fun e => nth e z 0 - nth (S e) z 0) (seq 0 n)) in
  length T = (2 * n)%nat /\
  forall e, (e < n)%nat ->
    fst (nth (2 * e) T no_row) = nth e z 0 /\ fst (nth (2 * e + 1) T no_row) = nth (S e) z 0 /\
    eq3 (snd (nth (2 * e) T no_row))
        (axial_above R e, shear_above R e, moment_above (fun a => nth a z 0) R e (nth e z 0)) /\
    eq3 (snd (nth (2 * e + 1) T no_row))
        (axial_above R e, shear_above R e, moment_above (fun a => nth a z 0) R e (nth (S e) z 0)).
Proof.
  intros solve n ty c E nu I A dd wt z k F U restrained d Q q SO HE Hn H1 Hz H HB.
  eapply beam_force_table; eauto.
  intros e He. destruct (H e He) as (P1 & P2 & P3 & P4 & P5). 
    apply Qlt_minus_iff in P4. exact (proj2 (mech_element_ok _ _ _ _ _ _ _ _ _ _ HE Hn P1 P2 P3 P4 P5)).
Qed.

Lemma pile_equilibrium : forall solve n ty c E nu I A dd wt z k F U restrained d Q q, solver_ok solve -> 0 < E -> -(3#4) <= nu -> (1 <= n)%nat ->
  (forall e, (e < n)%nat -> 0 < I e /\ 0 < A e /\ 0 < dd e /\ z (S e) < z e /\
     elem_mech ty c E nu (I e) (A e) (dd e) (wt e) (z e - z (S e)) = Ok (k e)) ->
  beam solve n k F U restrained = Some (d, Q, q) ->
  let R := fun i => F i + Q i in
  axial_above R n == 0 /\ shear_above R n == 0 /\ forall at_z, moment_above z R n at_z == 0.
Proof.
  intros solve n ty c E nu I A dd wt z k F U restrained d Q q SO HE Hn H1 H HB R.
  destruct (beam_parts _ _ _ _ _ _ _ _ _ HB) as [HS _].
  destruct (solve_equations_sound _ _ _ _ _ _ _ _ SO HS) as (AA & _ & _).
  assert (HK : forall e, (e < n)%nat -> elem_equilibrium (z e - z (S e)) (k e)).
  { intros e He. destruct (H e He) as (P1 & P2 & P3 & P4 & P5). 
    apply Qlt_minus_iff in P4. exact (proj2 (mech_element_ok _ _ _ _ _ _ _ _ _ _ HE Hn P1 P2 P3 P4 P5)). }
  destruct (global_equilibrium n k z d H1 HK) as (G1 & G2 & G3).
  pose proof (above_ext _ R n AA n z) as X.
  split; [|split].
  - destruct (X 0 ltac:(lia)) as (Y & _). rewrite <- Y. auto.
  - destruct (X 0 ltac:(lia)) as (_ & Y & _). rewrite <- Y. auto.
  - intros w. destruct (X w ltac:(lia)) as (_ & _ & Y). rewrite <- Y. auto.
Qed.

Lemma beam_sound : forall solve n k F U restrained d Q q, solver_ok solve -> beam solve n k F U restrained = Some (d, Q, q) ->
  (forall i, (i < 3 * n + 3)%nat -> mulv (3 * n + 3) (jit_build n k) d i == F i + Q i) /\
  (forall i, (i < 3 * n + 3)%nat -> restrained i = false -> U i == 0 -> Q i == 0) /\
  (forall i, (i < 3 * n + 3)%nat -> restrained i = true \/ ~ U i == 0 -> d i = U i).
Proof.
  intros solve n k F U restrained d Q q SO H. destruct (beam_parts _ _ _ _ _ _ _ _ _ H) as [HS _].
  destruct (solve_equations_sound _ _ _ _ _ _ _ _ SO HS) as (A & B & C). split; auto. split.
  - intros i Hi R0 U0. apply B; auto. unfold supports_of. rewrite R0. cbn [orb]. apply negb_false_iff. apply Qeqb_true; auto.
  - intros i Hi [R1|NU]; apply C; auto; unfold supports_of.
    + rewrite R1. reflexivity.
    + apply orb_true_iff. right. apply negb_true_iff. apply Qeqb_false; auto.
Qed.

(** Linearity of the reported internal forces *)
Lemma forces_linear : forall n k a b u v w, (1 <= n)%nat -> veq (3 * n + 3) w (fun i => a * u i + b * v i) ->
  forall e i, (e < n)%nat ->
    nth e (pile_internal_forces (S n) k w) (fun _ => 0) i ==
    a * nth e (pile_internal_forces (S n) k u) (fun _ => 0) i + b * nth e (pile_internal_forces (S n) k v) (fun _ => 0) i.
Proof.
  intros n k a b u v w Hn HW e i He.
  rewrite !(fun x => proj2 (internal_forces_elements n k x Hn) e i He).
  rewrite (mulv_ext 6 (k e) (k e) (elem_disp w e) (fun j => a * elem_disp u e j + b * elem_disp v e j)).
  - rewrite mulv_plus, !mulv_scale. ring.
  - intros; reflexivity.
  - intros j Hj. unfold elem_disp. apply HW. lia.
Qed.
