From Coq Require Import List Bool Arith ZArith QArith Qabs Lia Lqa Setoid.
From Verif Require Import Base LinAlg PileModel SolveModel SolveSpec.
Import ListNotations.
Local Open Scope Q_scope.

(** ** Assembly *)

Definition in6 (e i : nat) : bool := ((3 * e <=? i) && (i <? 3 * e + 6))%nat.

Lemma block_if : forall e k i j, block e k i j = if in6 e i && in6 e j then k (i - 3 * e)%nat (j - 3 * e)%nat else 0.
Proof. reflexivity. Qed.

Lemma block_mulv : forall n e k u i, (3 * e + 6 <= n)%nat ->
  mulv n (block e k) u i == scatter e (mulv 6 k (elem_disp u e)) i.
Proof.
  intros n e k u i H. unfold mulv at 1. unfold scatter. fold (in6 e i).
  destruct (in6 e i) eqn:E.
  - rewrite <- (sum_window n (3 * e) 6 (fun j => k (i - 3 * e)%nat j * elem_disp u e j)) by auto.
    apply sum_ext. intros j Hj. rewrite block_if, E. fold (in6 e j). destruct (in6 e j) eqn:EJ; cbn [andb].
    + unfold elem_disp. replace (3 * e + (j - 3 * e))%nat with j; [reflexivity|].
      unfold in6 in EJ. apply andb_prop in EJ. destruct EJ as [A _]. apply Nat.leb_le in A. lia.
    + ring.
  - apply sum_zero. intros j Hj. rewrite block_if, E. cbn [andb]. ring.
Qed.

Lemma build_mulv : forall n_elem k u i,
  mulv (3 * n_elem + 3) (jit_build n_elem k) u i ==
  sum n_elem (fun e => scatter e (mulv 6 (k e) (elem_disp u e)) i).
Proof.
  intros n k u i. unfold mulv at 1, jit_build.
  rewrite (sum_ext _ _ (fun j => sum n (fun e => block e (k e) i j * u j))) by (intros; symmetry; apply sum_scale_r).
  rewrite sum_swap. apply sum_ext. intros e He. rewrite <- (block_mulv (3 * n + 3) e (k e) u i) by lia. reflexivity.
Qed.

Lemma dot_scatter : forall n e q u, (3 * e + 6 <= n)%nat -> dot n u (scatter e q) == dot 6 (elem_disp u e) q.
Proof.
  intros n e q u H. unfold dot. rewrite <- (sum_window n (3 * e) 6 (fun j => elem_disp u e j * q j)) by auto.
  apply sum_ext. intros i Hi. unfold scatter. destruct ((3 * e <=? i) && (i <? 3 * e + 6))%nat eqn:E.
  - unfold elem_disp. replace (3 * e + (i - 3 * e))%nat with i; [reflexivity|].
    apply andb_prop in E. destruct E as [A _]. apply Nat.leb_le in A. lia.
  - ring.
Qed.

Lemma dot_sum : forall n m u f, dot n u (fun i => sum m (fun e => f e i)) == sum m (fun e => dot n u (f e)).
Proof.
  intros. unfold dot.
  rewrite (sum_ext _ _ (fun i => sum m (fun e => u i * f e i))) by (intros; symmetry; apply sum_scale).
  apply sum_swap.
Qed.

Lemma dot_ext : forall n u v u' v', veq n u u' -> veq n v v' -> dot n u v == dot n u' v'.
Proof. intros n u v u' v' HU HV. apply sum_ext. intros i Hi. rewrite (HU i Hi), (HV i Hi). reflexivity. Qed.

Lemma build_work : forall n_elem k u du,
  dot (3 * n_elem + 3) du (mulv (3 * n_elem + 3) (jit_build n_elem k) u) ==
  sum n_elem (fun e => dot 6 (elem_disp du e) (mulv 6 (k e) (elem_disp u e))).
Proof.
  intros n k u du.
  rewrite (dot_ext _ _ _ du (fun i => sum n (fun e => scatter e (mulv 6 (k e) (elem_disp u e)) i))).
  - rewrite dot_sum. apply sum_ext. intros e He. apply dot_scatter. lia.
  - intros i Hi; reflexivity.
  - intros i Hi. apply build_mulv.
Qed.

Lemma build_energy : forall n_elem k u,
  energy (3 * n_elem + 3) (jit_build n_elem k) u == sum n_elem (fun e => energy 6 (k e) (elem_disp u e)).
Proof. intros. apply build_work. Qed.

Lemma build_symmetric : forall n_elem k, (forall e, (e < n_elem)%nat -> symmetric 6 (k e)) ->
  symmetric (3 * n_elem + 3) (jit_build n_elem k).
Proof.
  intros n k H i j Hi Hj. apply sum_ext. intros e He. rewrite !block_if.
  rewrite (andb_comm (in6 e j)). destruct (in6 e i) eqn:A, (in6 e j) eqn:B; cbn [andb]; try reflexivity.
  apply H; auto; unfold in6 in *; apply andb_prop in A, B; destruct A as [A1 A2], B as [B1 B2];
    apply Nat.leb_le in A1, B1; apply Nat.ltb_lt in A2, B2; lia.
Qed.

Lemma build_psd : forall n_elem k, (forall e, (e < n_elem)%nat -> psd 6 (k e)) -> psd (3 * n_elem + 3) (jit_build n_elem k).
Proof. intros n k H u. rewrite build_energy. apply sum_nonneg. intros e He. apply H; auto. Qed.

(** pile nodes at elevations [z 0 > z 1 > ...]: element lengths [L e = z e - z (e+1)] *)
Definition rigid (z : nat -> Q) (a v t : Q) : vec := fun i =>
  match (i mod 3)%nat with O => a | 1%nat => v + t * (z O - z (i / 3)%nat) | _ => t end.

Lemma rigid_elem : forall z a v t e, 
  veq 6 (elem_disp (rigid z a v t) e)
        (of_list [a; v + t * (z O - z e); t; a; (v + t * (z O - z e)) + (z e - z (S e)) * t; t]).
Proof.
  intros z a v t e i Hi. unfold elem_disp, rigid.
  assert (M : forall r, (r < 3)%nat -> ((3 * e + r) mod 3 = r)%nat).
  { intros r Hr. rewrite Nat.add_comm, Nat.mul_comm, Nat.mod_add by lia. apply Nat.mod_small; auto. }
  assert (D : forall r, (r < 3)%nat -> ((3 * e + r) / 3 = e)%nat).
  { intros r Hr. rewrite Nat.add_comm, Nat.mul_comm, Nat.div_add by lia. rewrite Nat.div_small; auto. }
  assert (M' : forall r, (r < 3)%nat -> ((3 * e + (3 + r)) mod 3 = r)%nat).
  { intros r Hr. replace (3 * e + (3 + r))%nat with (r + (e + 1) * 3)%nat by lia. rewrite Nat.mod_add by lia. apply Nat.mod_small; auto. }
  assert (D' : forall r, (r < 3)%nat -> ((3 * e + (3 + r)) / 3 = S e)%nat).
  { intros r Hr. replace (3 * e + (3 + r))%nat with (r + (e + 1) * 3)%nat by lia. rewrite Nat.div_add by lia. rewrite Nat.div_small by auto. lia. }
  destruct i as [|[|[|[|[|[|]]]]]]; try lia; unfold of_list; cbn [nth].
  - rewrite (M 0%nat) by lia. reflexivity.
  - rewrite (M 1%nat), (D 1%nat) by lia. reflexivity.
  - rewrite (M 2%nat) by lia. reflexivity.
  - rewrite (M' 0%nat ltac:(lia) : ((3 * e + 3) mod 3 = 0)%nat). reflexivity.
  - rewrite (M' 1%nat ltac:(lia) : ((3 * e + 4) mod 3 = 1)%nat), (D' 1%nat ltac:(lia) : ((3 * e + 4) / 3 = S e)%nat). ring.
  - rewrite (M' 2%nat ltac:(lia) : ((3 * e + 5) mod 3 = 2)%nat). reflexivity.
Qed.

Lemma build_rigid : forall n_elem k z a v t i,
  (forall e a v t j, (e < n_elem)%nat -> (j < 6)%nat ->
     mulv 6 (k e) (of_list [a; v; t; a; v + (z e - z (S e)) * t; t]) j == 0) ->
  mulv (3 * n_elem + 3) (jit_build n_elem k) (rigid z a v t) i == 0.
Proof.
  intros n k z a v t i H. rewrite build_mulv. apply sum_zero. intros e He. unfold scatter.
  destruct ((3 * e <=? i) && (i <? 3 * e + 6))%nat eqn:E; [|reflexivity].
  apply andb_prop in E. destruct E as [A B]. apply Nat.leb_le in A. apply Nat.ltb_lt in B.
  rewrite (mulv_ext 6 (k e) (k e) _ _ _ (fun j _ => Qeq_refl _) (rigid_elem z a v t e)).
  apply H; auto. lia.
Qed.

Lemma add_diag_entry : forall n p v K i j,
  add_diag n p v K i j == K i j + (if (Nat.eqb i (n - p) && Nat.eqb j (n - p))%bool then v else 0).
Proof. intros. unfold add_diag. destruct (Nat.eqb i (n - p) && Nat.eqb j (n - p))%bool; ring. Qed.

Lemma add_diag_energy : forall n p v K u, (0 < p)%nat -> (p <= n)%nat ->
  energy n (add_diag n p v K) u == energy n K u + v * (u (n - p)%nat * u (n - p)%nat).
Proof.
  intros n p v K u P1 P2.
  rewrite (energy_ext n _ (fun i j => K i j + (if (Nat.eqb i (n - p) && Nat.eqb j (n - p))%bool then v else 0)) u u)
    by (intros; try apply add_diag_entry; reflexivity).
  rewrite energy_mplus. apply Qplus_comp; [reflexivity|].
  unfold energy, dot, mulv.
  rewrite (sum_ext n _ (fun i => if Nat.eqb i (n - p) then u i * (v * u (n - p)%nat) else 0)).
  - rewrite sum_delta by lia. ring.
  - intros i Hi. destruct (Nat.eqb i (n - p)) eqn:E; cbn [andb].
    + apply Qmult_comp; [reflexivity|]. rewrite <- (sum_delta n (n - p) (fun j => v * u j)) by lia.
      apply sum_ext. intros j Hj. destruct (Nat.eqb j (n - p)); ring.
    + rewrite sum_zero; [ring|]. intros; ring.
Qed.

(** ** Gaussian elimination *)

Lemma pick_some : forall rows p rest, pick rows = Some (p, rest) ->
  ~ hd 0 (fst p) == 0 /\ (forall r, In r rows <-> r = p \/ In r rest) /\ length rows = S (length rest).
Proof.
  induction rows as [|r t IH]; intros p rest H; [discriminate|]. simpl in H.
  destruct (Qeq_bool (hd 0 (fst r)) 0) eqn:E.
  - destruct (pick t) as [[p' rest']|] eqn:P; [|discriminate]. inversion H; subst. clear H.
    destruct (IH _ _ eq_refl) as (A & B & C). split; auto. split; [|simpl; lia].
    intros x. simpl. rewrite B. tauto.
  - inversion H; subst. apply Qeqb_false in E. split; auto. split; [|reflexivity].
    intros x. simpl. split; intros [->|?]; auto.
Qed.

Lemma pick_none : forall rows, pick rows = None -> forall r, In r rows -> hd 0 (fst r) == 0.
Proof.
  induction rows as [|r t IH]; intros H x Hx; [destruct Hx|]. destruct Hx as [<-|Hx]; simpl in H.
  - destruct (Qeq_bool (hd 0 (fst r)) 0) eqn:E; [apply Qeqb_true; auto|discriminate].
  - destruct (Qeq_bool (hd 0 (fst r)) 0); [|discriminate]. destruct (pick t) as [[]|]; [discriminate|]. auto.
Qed.

Lemma ldot_zero : forall a b, (forall x, In x b -> x == 0) -> ldot a b == 0.
Proof.
  induction a as [|x a IH]; intros [|y b] H; simpl; try reflexivity.
  rewrite (H y), IH; [ring| |left; reflexivity]. intros; apply H; right; auto.
Qed.

Lemma sub_row_dot : forall c p r x, length p = length x -> length r = length x ->
  ldot (sub_row c p r) x == ldot r x - c * ldot p x.
Proof.
  intros c p r x. revert p r. induction x as [|a x IH]; intros [|b p] [|d r] H1 H2; try discriminate.
  - simpl. ring.
  - unfold sub_row in *. cbn [combine map ldot fst snd]. rewrite IH by (simpl in *; lia). rewrite Qred_correct. ring.
Qed.

Lemma sub_row_length : forall c p r m, length p = m -> length r = m -> length (sub_row c p r) = m.
Proof. intros. unfold sub_row. rewrite map_length, combine_length. lia. Qed.

Definition sized (n : nat) (rows : list row) : Prop := forall r, In r rows -> length (fst r) = n.

Lemma reduce_sized : forall m p rest, length (fst p) = S m -> sized (S m) rest -> sized m (map (reduce p) rest).
Proof.
  intros m p rest HP H r Hr. apply in_map_iff in Hr. destruct Hr as (x & <- & Hx). unfold reduce. cbn [fst].
  specialize (H x Hx). apply sub_row_length; destruct (fst p), (fst x); simpl in *; lia.
Qed.

Lemma reduce_eq : forall m p r xs x0, length (fst p) = S m -> length (fst r) = S m -> length xs = m -> ~ hd 0 (fst p) == 0 ->
  ldot (fst p) (x0 :: xs) == snd p -> ldot (fst (reduce p r)) xs == snd (reduce p r) -> ldot (fst r) (x0 :: xs) == snd r.
Proof.
  intros m p r xs x0 HP HR HX N EP ER. unfold reduce in ER. cbn [fst snd] in ER.
  destruct (fst p) as [|h pt]; [discriminate|]. destruct (fst r) as [|g rt]; [discriminate|].
  cbn [hd tl ldot] in *. rewrite sub_row_dot in ER by (simpl in *; lia). rewrite !Qred_correct in ER.
  assert (G : g == g / h * h) by (field; auto).
  set (c := g / h) in *. rewrite G.
  assert (E2 : h * x0 == snd p - ldot pt xs) by lra.
  assert (E3 : c * h * x0 == c * (snd p - ldot pt xs)) by (rewrite <- E2; ring).
  rewrite E3. lra.
Qed.

Lemma gauss_length : forall n rows x, gauss n rows = Some x -> length x = n.
Proof.
  induction n as [|m IH]; intros rows x H; simpl in H; [inversion H; reflexivity|].
  destruct (pick rows) as [[p rest]|]; [|discriminate].
  destruct (gauss m (map (reduce p) rest)) as [xs|] eqn:G; [|discriminate]. inversion H. simpl. f_equal. eapply IH; eauto.
Qed.

Lemma gauss_solves : forall n rows x, sized n rows -> length rows = n -> gauss n rows = Some x ->
  forall r, In r rows -> ldot (fst r) x == snd r.
Proof.
  induction n as [|m IH]; intros rows x SZ LN H r Hr.
  - destruct rows; [destruct Hr|discriminate].
  - simpl in H. destruct (pick rows) as [[p rest]|] eqn:P; [|discriminate].
    destruct (pick_some _ _ _ P) as (N & I & LR).
    destruct (gauss m (map (reduce p) rest)) as [xs|] eqn:G; [|discriminate]. inversion H; subst x. clear H.
    assert (LP : length (fst p) = S m) by (apply SZ, I; auto).
    assert (LX : length xs = m) by (eapply gauss_length; eauto).
    assert (EP : ldot (fst p) (Qred ((snd p - ldot (tl (fst p)) xs) / hd 0 (fst p)) :: xs) == snd p).
    { destruct (fst p) as [|h pt]; [discriminate|]. cbn [hd tl ldot] in *. rewrite Qred_correct. field. auto. }
    apply I in Hr. destruct Hr as [->|Hr]; auto.
    eapply (reduce_eq m p r); eauto; [apply SZ, I; auto|].
    apply (IH (map (reduce p) rest)); auto.
    + apply reduce_sized; auto. intros y Hy. apply SZ, I; auto.
    + rewrite map_length. lia.
    + apply in_map; auto.
Qed.

(** homogeneous equation *)
Lemma reduce_hom : forall m p r v0 vs, length (fst p) = S m -> length (fst r) = S m -> length vs = m -> ~ hd 0 (fst p) == 0 ->
  ldot (fst p) (v0 :: vs) == 0 -> (ldot (fst (reduce p r)) vs == 0 <-> ldot (fst r) (v0 :: vs) == 0).
Proof.
  intros m p r v0 vs HP HR HX N EP. unfold reduce. cbn [fst].
  destruct (fst p) as [|h pt]; [discriminate|]. destruct (fst r) as [|g rt]; [discriminate|].
  cbn [hd tl ldot] in *. rewrite sub_row_dot by (simpl in *; lia). rewrite Qred_correct.
  assert (G : g == g / h * h) by (field; auto).
  set (c := g / h) in *. rewrite G.
  assert (E2 : h * v0 == - ldot pt vs) by lra.
  assert (E3 : c * h * v0 == c * (- ldot pt vs)) by (rewrite <- E2; ring).
  rewrite E3. split; intro; lra.
Qed.

Lemma gauss_unique : forall n rows x v, sized n rows -> length rows = n -> gauss n rows = Some x -> length v = n ->
  (forall r, In r rows -> ldot (fst r) v == 0) -> forall y, In y v -> y == 0.
Proof.
  induction n as [|m IH]; intros rows x v SZ LN H LV Z.
  - destruct v; [intros y []|discriminate].
  - simpl in H. destruct (pick rows) as [[p rest]|] eqn:P; [|discriminate].
    destruct (pick_some _ _ _ P) as (N & I & LR).
    destruct (gauss m (map (reduce p) rest)) as [xs|] eqn:G; [|discriminate]. clear H.
    destruct v as [|v0 vs]; [discriminate|].
    assert (LP : length (fst p) = S m) by (apply SZ, I; auto).
    assert (ZP : ldot (fst p) (v0 :: vs) == 0) by (apply Z, I; auto).
    assert (VS : forall y, In y vs -> y == 0).
    { apply (IH (map (reduce p) rest) xs vs); auto.
      - apply reduce_sized; auto. intros y Hy. apply SZ, I; auto.
      - rewrite map_length. lia.
      - intros r Hr. apply in_map_iff in Hr. destruct Hr as (r0 & <- & Hr0).
        apply (reduce_hom m p r0 v0 vs); auto; [apply SZ, I; auto|apply Z, I; auto]. }
    intros y [<-|Hy]; auto.
    destruct (fst p) as [|h pt]; [discriminate|]. cbn [hd ldot] in *. rewrite ldot_zero in ZP by auto.
    assert (X : h * v0 == 0) by lra. apply Qmult_integral in X. destruct X; [contradiction|auto].
Qed.

Lemma gauss_singular : forall n rows, sized n rows -> gauss n rows = None ->
  exists v, length v = n /\ (exists y, In y v /\ ~ y == 0) /\ forall r, In r rows -> ldot (fst r) v == 0.
Proof.
  induction n as [|m IH]; intros rows SZ H; [discriminate|]. simpl in H.
  destruct (pick rows) as [[p rest]|] eqn:P.
  - destruct (pick_some _ _ _ P) as (N & I & LR).
    destruct (gauss m (map (reduce p) rest)) as [xs|] eqn:G; [discriminate|].
    assert (LP : length (fst p) = S m) by (apply SZ, I; auto).
    destruct (IH (map (reduce p) rest)) as (vs & LV & (y & Hy & NY) & Z); auto.
    { apply reduce_sized; auto. intros y Hy. apply SZ, I; auto. }
    exists ((- ldot (tl (fst p)) vs / hd 0 (fst p)) :: vs). split; [simpl; lia|].
    split; [exists y; split; [right|]; auto|].
    assert (ZP : ldot (fst p) ((- ldot (tl (fst p)) vs / hd 0 (fst p)) :: vs) == 0).
    { destruct (fst p) as [|h pt]; [discriminate|]. cbn [hd tl ldot] in *. field. auto. }
    intros r Hr. apply I in Hr. destruct Hr as [->|Hr]; auto.
    apply (reduce_hom m p r); auto; [apply SZ, I; auto|]. apply Z. apply in_map; auto.
  - exists (1 :: repeat 0 m). split; [simpl; rewrite repeat_length; auto|].
    split; [exists 1; split; [left; auto|discriminate]|].
    intros r Hr. pose proof (pick_none _ P r Hr) as Z. specialize (SZ r Hr).
    destruct (fst r) as [|h t]; [discriminate|]. cbn [hd ldot] in *. rewrite Z, ldot_zero; [ring|].
    intros x Hx. apply repeat_spec in Hx. subst. reflexivity.
Qed.

Lemma ldot_sum : forall n m a v, length v = n ->
  ldot (map a (seq m n)) v == sum n (fun j => a (m + j)%nat * nth j v 0).
Proof.
  induction n as [|n IH]; intros m a v H; destruct v as [|x v]; try discriminate; [reflexivity|].
  cbn [seq map ldot]. rewrite IH by (simpl in *; lia). rewrite sum_first. rewrite Nat.add_0_r. cbn [nth].
  apply Qplus_comp; [reflexivity|]. apply sum_ext. intros j Hj. rewrite Nat.add_succ_r. reflexivity.
Qed.

Definition rows_of (n : nat) (A : mat) (b : vec) : list row :=
  map (fun i => (map (fun j => Qred (A i j)) (seq 0 n), Qred (b i))) (seq 0 n).

Lemma rows_sized : forall n A b, sized n (rows_of n A b).
Proof. intros n A b r H. apply in_map_iff in H. destruct H as (i & <- & _). simpl. rewrite map_length, seq_length. auto. Qed.

Lemma rows_length : forall n A b, length (rows_of n A b) = n.
Proof. intros. unfold rows_of. rewrite map_length, seq_length. auto. Qed.

Lemma row_dot : forall n A v i, length v = n -> (i < n)%nat ->
  ldot (map (fun j => Qred (A i j)) (seq 0 n)) v == mulv n A (of_list v) i.
Proof.
  intros n A v i H Hi. rewrite ldot_sum by auto. unfold mulv. apply sum_ext. intros j Hj.
  rewrite Qred_correct. reflexivity.
Qed.

Lemma gauss_solver_ok : solver_ok gauss_solver.
Proof.
  split.
  - intros n A b x H i Hi. unfold gauss_solver in H. fold (rows_of n A b) in H.
    destruct (gauss n (rows_of n A b)) as [l|] eqn:G; [|discriminate]. inversion H; subst x.
    pose proof (gauss_length _ _ _ G) as L.
    rewrite <- (row_dot n A l i L Hi).
    pose proof (gauss_solves n _ _ (rows_sized n A b) (rows_length n A b) G
                 (map (fun j => Qred (A i j)) (seq 0 n), Qred (b i))) as S.
    cbn [fst snd] in S. rewrite S; [apply Qred_correct|].
    unfold rows_of. apply in_map_iff. exists i. split; auto. apply in_seq. lia.
  - intros n A b. split.
    + intros [x H] v Z i Hi. unfold gauss_solver in H. fold (rows_of n A b) in H.
      destruct (gauss n (rows_of n A b)) as [l|] eqn:G; [|discriminate].
      pose proof (gauss_unique n _ _ (to_list n v) (rows_sized n A b) (rows_length n A b) G) as U.
      unfold to_list in U. rewrite map_length, seq_length in U. apply (U eq_refl).
      * intros r Hr. apply in_map_iff in Hr. destruct Hr as (k & <- & Hk). apply in_seq in Hk. cbn [fst].
        rewrite (row_dot n A); [|rewrite map_length, seq_length; auto|lia].
        rewrite <- (Z k) by lia. apply mulv_ext; [intros; reflexivity|]. intros j Hj. unfold of_list.
        rewrite (nth_indep _ 0 (v O)) by (rewrite map_length, seq_length; auto). rewrite map_nth, seq_nth by auto. reflexivity.
      * apply in_map_iff. exists i. split; auto. apply in_seq; lia.
    + intros NS. unfold gauss_solver. fold (rows_of n A b).
      destruct (gauss n (rows_of n A b)) as [l|] eqn:G; [eexists; reflexivity|].
      destruct (gauss_singular n _ (rows_sized n A b) G) as (v & LV & (y & Hy & NY) & Z). exfalso. apply NY.
      apply In_nth with (d := 0) in Hy. destruct Hy as (i & Hi & <-). rewrite LV in Hi.
      apply (NS (of_list v)); auto. intros k Hk. rewrite <- (row_dot n A v k LV Hk).
      apply (Z (map (fun j => Qred (A k j)) (seq 0 n), Qred (b k))).
      unfold rows_of. apply in_map_iff. exists k. split; auto. apply in_seq; lia.
Qed.

(** ** solve_equations *)

Fixpoint lsum (l : list nat) (f : nat -> Q) : Q := match l with [] => 0 | i :: t => f i + lsum t f end.

Lemma lsum_nth : forall l f, lsum l f == sum (length l) (fun p => f (nth p l O)).
Proof.
  induction l as [|h t IH]; intros f; [reflexivity|]. cbn [length]. rewrite sum_first. cbn [lsum nth]. rewrite IH. reflexivity.
Qed.

Lemma lsum_filter : forall l r f, lsum l f == lsum (filter r l) f + lsum (filter (fun i => negb (r i)) l) f.
Proof. induction l as [|h t IH]; intros r f; simpl; [ring|]. rewrite (IH r f). destruct (r h); simpl; ring. Qed.

Lemma lsum_seq : forall n f, sum n f == lsum (seq 0 n) f.
Proof.
  intros n f. rewrite lsum_nth, seq_length. apply sum_ext. intros i Hi. rewrite seq_nth by auto. reflexivity.
Qed.

Lemma sum_free_fixed : forall n r f,
  sum n f == sum (length (where_ n r)) (fun p => f (nth p (where_ n r) O))
           + sum (length (where_ n (fun i => negb (r i)))) (fun p => f (nth p (where_ n (fun i => negb (r i))) O)).
Proof. intros. rewrite lsum_seq, (lsum_filter _ r), !lsum_nth. reflexivity. Qed.

Lemma index_nth : forall l g p, NoDup l -> nth_error l p = Some g -> index_of g l = Some p.
Proof.
  induction l as [|h t IH]; intros g p ND H; [destruct p; discriminate|]. inversion ND as [|? ? NI ND']; subst. simpl.
  destruct p as [|p]; simpl in H.
  - inversion H; subst. rewrite Nat.eqb_refl. reflexivity.
  - destruct (Nat.eqb_spec h g) as [->|N].
    + exfalso. apply NI. eapply nth_error_In; eauto.
    + rewrite (IH g p); auto.
Qed.

Lemma index_none : forall l g, ~ In g l -> index_of g l = None.
Proof.
  induction l as [|h t IH]; intros g N; auto. simpl. destruct (Nat.eqb_spec h g) as [->|]; [exfalso; apply N; left; auto|].
  rewrite IH; auto. intro; apply N; right; auto.
Qed.

Lemma where_nodup : forall n r, NoDup (where_ n r).
Proof. intros. apply NoDup_filter, seq_NoDup. Qed.

Lemma where_in : forall n r i, In i (where_ n r) <-> (i < n)%nat /\ r i = true.
Proof. intros. unfold where_. rewrite filter_In, in_seq. split; intros [A B]; split; auto; lia. Qed.

Lemma nth_where : forall n r p, (p < length (where_ n r))%nat -> (nth p (where_ n r) O < n)%nat /\ r (nth p (where_ n r) O) = true.
Proof. intros. apply where_in, nth_In. auto. Qed.

Lemma assign_free : forall U idx x p, NoDup idx -> (p < length idx)%nat -> assign U idx x (nth p idx O) = x p.
Proof.
  intros U idx x p ND H. unfold assign. rewrite (index_nth idx _ p); auto. apply nth_error_nth'. auto.
Qed.

Lemma assign_other : forall U idx x g, ~ In g idx -> assign U idx x g = U g.
Proof. intros. unfold assign. rewrite index_none; auto. Qed.

Definition nr (r : nat -> bool) : nat -> bool := fun i => negb (r i).

Lemma where_index : forall n r i, (i < n)%nat -> r i = true -> exists p, (p < length (where_ n r))%nat /\ nth p (where_ n r) O = i.
Proof.
  intros n r i Hi R. assert (I : In i (where_ n r)) by (apply where_in; auto).
  apply In_nth with (d := O) in I. destruct I as (p & Hp & E). eauto.
Qed.

(** K times a vector at a free row *)
Lemma mulv_split : forall n K V r i,
  mulv n K V i == sum (length (where_ n r)) (fun q => K i (nth q (where_ n r) O) * V (nth q (where_ n r) O))
                + sum (length (where_ n (nr r))) (fun q => K i (nth q (where_ n (nr r)) O) * V (nth q (where_ n (nr r)) O)).
Proof. intros. unfold mulv. apply (sum_free_fixed n r (fun j => K i j * V j)). Qed.

Lemma existsb_none : forall n r, existsb r (seq 0 n) = false -> forall i, (i < n)%nat -> r i = false.
Proof.
  intros n r H i Hi. destruct (r i) eqn:E; auto. assert (existsb r (seq 0 n) = true); [|congruence].
  apply existsb_exists. exists i. split; auto. apply in_seq; lia.
Qed.

Lemma solve_equations_sound : forall solve n K F U r U' Q, solver_ok solve -> solve_equations solve n K F U r = Some (U', Q) ->
  (forall i, (i < n)%nat -> mulv n K U' i == F i + Q i) /\
  (forall i, (i < n)%nat -> r i = false -> Q i == 0) /\
  (forall i, (i < n)%nat -> r i = true -> U' i = U i).
Proof.
  intros solve n K F U r U' Q [SO _] H. unfold solve_equations in H.
  assert (EQ : forall V, (fun i => mulv n K V i - F i) = Q -> U' = V -> forall i, mulv n K U' i == F i + Q i).
  { intros V <- -> i. ring. }
  destruct (existsb r (seq 0 n)) eqn:EX.
  - change (where_ n (fun i => negb (r i))) with (where_ n (nr r)) in H.
    set (free := where_ n (nr r)) in *. set (fixed := where_ n r) in *.
    destruct (solve _ _ _) as [x|] eqn:S; [|discriminate]. cbn [option_map] in H.
    assert (EU : U' = assign U free x) by congruence. assert (EQQ : (fun i => mulv n K (assign U free x) i - F i) = Q) by congruence.
    clear H. split; [intros i _; eapply EQ; eauto|]. split.
    + intros i Hi Ri. subst Q. destruct (where_index n (nr r) i Hi) as (p & Hp & E); [unfold nr; rewrite Ri; auto|].
      fold free in Hp, E. pose proof (SO _ _ _ _ S p Hp) as SP. cbv beta in SP. rewrite E in SP.
      rewrite (mulv_split n K _ r i). fold free fixed.
      rewrite (sum_ext (length fixed) _ (fun q => numba_ix K free fixed p q * U (nth q fixed O))).
      2:{ intros q Hq. unfold numba_ix. rewrite E. rewrite assign_other; [reflexivity|].
          unfold free. rewrite where_in. unfold nr. destruct (nth_where n r q Hq) as [_ T]. fold fixed in T. rewrite T. intros [_ X]; discriminate X. }
      rewrite (sum_ext (length free) _ (fun q => numba_ix K free free p q * x q)).
      2:{ intros q Hq. unfold numba_ix. rewrite E. rewrite assign_free; [reflexivity| |auto]. apply where_nodup. }
      unfold mulv in SP. rewrite SP. ring.
    + intros i Hi Ri. subst U'. apply assign_other. unfold free. rewrite where_in. unfold nr. rewrite Ri. intros [_ X]; discriminate X.
  - destruct (solve n K F) as [x|] eqn:S; [|discriminate]. cbn [option_map] in H.
    assert (EU : U' = x) by congruence. assert (EQQ : (fun i => mulv n K x i - F i) = Q) by congruence. clear H.
    split; [intros i _; eapply EQ; eauto|]. split.
    + intros i Hi Ri. subst Q. rewrite (SO _ _ _ _ S i Hi). ring.
    + intros i Hi Ri. rewrite (existsb_none n r EX i Hi) in Ri. discriminate.
Qed.

Lemma solve_equations_succeeds : forall solve n K F U r, solver_ok solve ->
  ((exists R, solve_equations solve n K F U r = Some R) <-> stable n K r).
Proof.
  intros solve n K F U r [_ SN]. unfold solve_equations. destruct (existsb r (seq 0 n)) eqn:EX.
  - change (where_ n (fun i => negb (r i))) with (where_ n (nr r)).
    set (free := where_ n (nr r)) in *. set (fixed := where_ n r) in *.
    match goal with |- (exists R, option_map _ (option_map _ (solve ?m ?A ?b)) = Some R) <-> _ => specialize (SN m A b) end.
    assert (E : nonsingular (length free) (numba_ix K free free) <-> stable n K r).
    { split.
      - intros NS v V0 KV i Hi. destruct (r i) eqn:Ri; [apply V0; auto|].
        assert (X : forall p, (p < length free)%nat -> v (nth p free O) == 0).
        { apply (NS (fun p => v (nth p free O))). intros p Hp. destruct (nth_where n (nr r) p Hp) as [A B]. fold free in A, B.
          unfold nr in B. apply negb_true_iff in B. specialize (KV _ A B). rewrite (mulv_split n K v r) in KV. fold free fixed in KV.
          rewrite (sum_zero (length fixed)) in KV.
          - unfold mulv, numba_ix. rewrite <- KV. ring.
          - intros q Hq. destruct (nth_where n r q Hq) as [C D]. fold fixed in C, D. rewrite V0 by auto. ring. }
        destruct (where_index n (nr r) i Hi) as (p & Hp & Ep); [unfold nr; rewrite Ri; auto|]. fold free in Hp, Ep.
        rewrite <- Ep. apply X; auto.
      - intros ST v Z p Hp.
        pose proof (ST (assign (fun _ => 0) free v)) as T.
        destruct (nth_where n (nr r) p Hp) as [A B]. fold free in A, B.
        assert (X : assign (fun _ => 0) free v (nth p free O) == 0).
        { apply T; auto.
          - intros i Hi Ri. rewrite assign_other; [reflexivity|]. unfold free. rewrite where_in. unfold nr. rewrite Ri. intros [_ Y]; discriminate Y.
          - intros i Hi Ri. destruct (where_index n (nr r) i Hi) as (q & Hq & Eq); [unfold nr; rewrite Ri; auto|]. fold free in Hq, Eq.
            rewrite (mulv_split n K _ r i). fold free fixed. rewrite (sum_zero (length fixed)).
            + specialize (Z q Hq). rewrite Qplus_0_l, <- Z. apply sum_ext. intros s Hs. unfold numba_ix. rewrite Eq, assign_free; [reflexivity| |auto]. apply where_nodup.
            + intros s Hs. rewrite assign_other; [ring|]. unfold free. rewrite where_in. unfold nr.
              destruct (nth_where n r s Hs) as [_ D]. fold fixed in D. rewrite D. intros [_ Y]; discriminate Y. }
        rewrite assign_free in X; auto. apply where_nodup. }
    rewrite <- E, <- SN. destruct (solve _ _ _) as [x|]; cbn [option_map].
    + split; intros _; eexists; reflexivity.
    + split; intros [? H]; discriminate H.
  - specialize (SN n K F). assert (E : nonsingular n K <-> stable n K r).
    { pose proof (existsb_none n r EX) as R0. split.
      - intros NS v _ KV. apply NS. intros; apply KV; auto.
      - intros ST v Z. apply (ST v); [intros i Hi Ri; rewrite R0 in Ri by auto; discriminate|intros; auto]. }
    rewrite <- E, <- SN. destruct (solve n K F) as [x|]; cbn [option_map].
    + split; intros _; eexists; reflexivity.
    + split; intros [? H]; discriminate H.
Qed.

(** Uniqueness: any displacement field in equilibrium with the same supports is the solution. *)
Lemma solution_unique : forall n K F r U1 Q1 U2 Q2, stable n K r ->
  (forall i, (i < n)%nat -> mulv n K U1 i == F i + Q1 i) -> (forall i, (i < n)%nat -> mulv n K U2 i == F i + Q2 i) ->
  (forall i, (i < n)%nat -> r i = false -> Q1 i == 0) -> (forall i, (i < n)%nat -> r i = false -> Q2 i == 0) ->
  (forall i, (i < n)%nat -> r i = true -> U1 i == U2 i) ->
  veq n U1 U2 /\ veq n Q1 Q2.
Proof.
  intros n K F r U1 Q1 U2 Q2 ST E1 E2 Z1 Z2 B.
  assert (V : veq n U1 U2).
  { intros i Hi. assert (X : U1 i - U2 i == 0); [|lra].
    apply (ST (fun j => U1 j - U2 j)); auto.
    - intros j Hj Rj. rewrite B by auto. ring.
    - intros j Hj Rj. rewrite mulv_minus, E1, E2, Z1, Z2 by auto. ring. }
  split; auto. intros i Hi. assert (X : mulv n K U1 i == mulv n K U2 i).
  { apply mulv_ext; auto. intros; reflexivity. }
  rewrite E1, E2 in X by auto. lra.
Qed.

Lemma superposition : forall solve n K r a b F1 P1 U1 Q1 F2 P2 U2 Q2, solver_ok solve ->
  solve_equations solve n K F1 P1 r = Some (U1, Q1) -> solve_equations solve n K F2 P2 r = Some (U2, Q2) ->
  exists U Q, solve_equations solve n K (fun i => a * F1 i + b * F2 i) (fun i => a * P1 i + b * P2 i) r = Some (U, Q) /\
    veq n U (fun i => a * U1 i + b * U2 i) /\ veq n Q (fun i => a * Q1 i + b * Q2 i).
Proof.
  intros solve n K r a b F1 P1 U1 Q1 F2 P2 U2 Q2 SO H1 H2.
  assert (ST : stable n K r) by (apply (solve_equations_succeeds solve n K F1 P1 r SO); eauto).
  destruct (proj2 (solve_equations_succeeds solve n K (fun i => a * F1 i + b * F2 i) (fun i => a * P1 i + b * P2 i) r SO) ST) as [[U Q] H].
  exists U, Q. split; auto.
  destruct (solve_equations_sound _ _ _ _ _ _ _ _ SO H1) as (A1 & B1 & C1).
  destruct (solve_equations_sound _ _ _ _ _ _ _ _ SO H2) as (A2 & B2 & C2).
  destruct (solve_equations_sound _ _ _ _ _ _ _ _ SO H) as (A3 & B3 & C3).
  apply (solution_unique n K (fun i => a * F1 i + b * F2 i) r); auto.
  - intros i Hi. rewrite mulv_plus, !mulv_scale, A1, A2 by auto. ring.
  - intros i Hi Ri. rewrite B1, B2 by auto. ring.
  - intros i Hi Ri. rewrite C1, C2, C3 by auto. reflexivity.
Qed.

(** Maxwell-Betti reciprocity for two load cases on the same fixed supports. *)
Lemma reciprocity : forall solve n K r F1 U1 Q1 F2 U2 Q2, solver_ok solve -> symmetric n K ->
  solve_equations solve n K F1 (fun _ => 0) r = Some (U1, Q1) -> solve_equations solve n K F2 (fun _ => 0) r = Some (U2, Q2) ->
  dot n F1 U2 == dot n F2 U1.
Proof.
  intros solve n K r F1 U1 Q1 F2 U2 Q2 SO SY H1 H2.
  destruct (solve_equations_sound _ _ _ _ _ _ _ _ SO H1) as (A1 & B1 & C1).
  destruct (solve_equations_sound _ _ _ _ _ _ _ _ SO H2) as (A2 & B2 & C2).
  assert (X : forall F U Q V, (forall i, (i < n)%nat -> mulv n K U i == F i + Q i) ->
     (forall i, (i < n)%nat -> r i = false -> Q i == 0) -> (forall i, (i < n)%nat -> r i = true -> V i = 0) ->
     dot n V (mulv n K U) == dot n F V).
  { intros F U Q V A B C. apply sum_ext. intros i Hi. rewrite A by auto. destruct (r i) eqn:R.
    - rewrite C by auto. ring.
    - rewrite B by auto. ring. }
  rewrite <- (X F1 U1 Q1 U2), <- (X F2 U2 Q2 U1) by auto. apply symmetric_work; auto.
Qed.
