(** Finite sums, vectors and matrices over Q as functions of the index. *)
From Coq Require Import List Bool Arith ZArith QArith Lia Lqa Setoid.
Import ListNotations.
Local Open Scope Q_scope.

Definition vec := nat -> Q.
Definition mat := nat -> nat -> Q.

Fixpoint sum (n : nat) (f : nat -> Q) : Q :=
  match n with O => 0 | S m => sum m f + f m end.

Definition mulv (n : nat) (K : mat) (u : vec) : vec := fun i => sum n (fun j => K i j * u j).
Definition dot (n : nat) (u v : vec) : Q := sum n (fun i => u i * v i).
Definition energy (n : nat) (K : mat) (u : vec) : Q := dot n u (mulv n K u).
Definition symmetric (n : nat) (K : mat) : Prop := forall i j, (i < n)%nat -> (j < n)%nat -> K i j == K j i.
Definition psd (n : nat) (K : mat) : Prop := forall u, 0 <= energy n K u.
Definition of_rows (rows : list (list Q)) : mat := fun i j => nth j (nth i rows []) 0.
Definition of_list (l : list Q) : vec := fun i => nth i l 0.
Definition to_list (n : nat) (u : vec) : list Q := map u (seq 0 n).

Lemma sum_ext : forall n f g, (forall i, (i < n)%nat -> f i == g i) -> sum n f == sum n g.
Proof.
  induction n as [|n IH]; intros f g H; simpl; [reflexivity|].
  rewrite (IH f g), (H n) by auto. reflexivity.
Qed.

Lemma sum_plus : forall n f g, sum n (fun i => f i + g i) == sum n f + sum n g.
Proof. induction n as [|n IH]; intros; simpl; [ring|]. rewrite IH. ring. Qed.

Lemma sum_minus : forall n f g, sum n (fun i => f i - g i) == sum n f - sum n g.
Proof. induction n as [|n IH]; intros; simpl; [ring|]. rewrite IH. ring. Qed.

Lemma sum_scale : forall n c f, sum n (fun i => c * f i) == c * sum n f.
Proof. induction n as [|n IH]; intros; simpl; [ring|]. rewrite IH. ring. Qed.

Lemma sum_scale_r : forall n c f, sum n (fun i => f i * c) == sum n f * c.
Proof. induction n as [|n IH]; intros; simpl; [ring|]. rewrite IH. ring. Qed.

Lemma sum_zero : forall n f, (forall i, (i < n)%nat -> f i == 0) -> sum n f == 0.
Proof.
  induction n as [|n IH]; intros f H; simpl; [reflexivity|]. rewrite IH, H by auto. ring.
Qed.

Lemma sum_swap : forall n m f, sum n (fun i => sum m (fun j => f i j)) == sum m (fun j => sum n (fun i => f i j)).
Proof.
  induction n as [|n IH]; intros m f; simpl.
  - symmetry. apply sum_zero. intros; reflexivity.
  - rewrite IH, <- sum_plus. reflexivity.
Qed.

Lemma sum_nonneg : forall n f, (forall i, (i < n)%nat -> 0 <= f i) -> 0 <= sum n f.
Proof.
  induction n as [|n IH]; intros f H; simpl; [lra|].
  specialize (IH f (fun i Hi => H i (Nat.lt_lt_succ_r _ _ Hi))). specialize (H n (Nat.lt_succ_diag_r n)). lra.
Qed.

Lemma sum_le : forall n f g, (forall i, (i < n)%nat -> f i <= g i) -> sum n f <= sum n g.
Proof.
  induction n as [|n IH]; intros f g H; simpl; [lra|].
  specialize (IH f g (fun i Hi => H i (Nat.lt_lt_succ_r _ _ Hi))). specialize (H n (Nat.lt_succ_diag_r n)). lra.
Qed.

Lemma sum_delta : forall n k f, (k < n)%nat -> sum n (fun i => if Nat.eqb i k then f i else 0) == f k.
Proof.
  induction n as [|n IH]; intros k f H; [lia|]. simpl. destruct (Nat.eqb_spec n k) as [->|N].
  - rewrite sum_zero; [ring|]. intros i Hi. destruct (Nat.eqb_spec i k); [lia|reflexivity].
  - rewrite IH by lia. ring.
Qed.

Lemma sum_split : forall n m f, sum (n + m) f == sum n f + sum m (fun i => f (n + i)%nat).
Proof.
  intros n m f. induction m as [|m IH].
  - rewrite Nat.add_0_r. simpl. ring.
  - rewrite Nat.add_succ_r. simpl. rewrite IH. ring.
Qed.

Lemma sum_first : forall n f, sum (S n) f == f O + sum n (fun i => f (S i)).
Proof. intros. change (S n) with (1 + n)%nat. rewrite sum_split. simpl. ring. Qed.

(** A window of a sum. *)
Lemma sum_window : forall n s m f, (s + m <= n)%nat ->
  sum n (fun i => if (s <=? i)%nat && (i <? s + m)%nat then f (i - s)%nat else 0) == sum m f.
Proof.
  intros n s m f H. replace n with (s + (m + (n - s - m)))%nat by lia.
  rewrite sum_split, sum_split.
  rewrite (sum_zero s), (sum_zero (n - s - m)).
  - rewrite (sum_ext m _ f); [ring|]. intros i Hi.
    destruct (Nat.leb_spec s (s + i)); [|lia]. destruct (Nat.ltb_spec (s + i) (s + m)); [|lia].
    simpl. replace (s + i - s)%nat with i by lia. reflexivity.
  - intros i Hi. destruct (Nat.ltb_spec (s + (m + i)) (s + m)); [lia|]. rewrite andb_false_r. reflexivity.
  - intros i Hi. destruct (Nat.leb_spec s i); [lia|]. reflexivity.
Qed.

Lemma mulv_ext : forall n K K' u u' i, (forall j, (j < n)%nat -> K i j == K' i j) -> (forall j, (j < n)%nat -> u j == u' j) ->
  mulv n K u i == mulv n K' u' i.
Proof. intros n K K' u u' i HK Hu. apply sum_ext. intros j Hj. rewrite HK, Hu by auto. reflexivity. Qed.

Lemma mulv_plus : forall n K u v i, mulv n K (fun j => u j + v j) i == mulv n K u i + mulv n K v i.
Proof. intros. unfold mulv. rewrite <- sum_plus. apply sum_ext. intros; ring. Qed.

Lemma mulv_minus : forall n K u v i, mulv n K (fun j => u j - v j) i == mulv n K u i - mulv n K v i.
Proof. intros. unfold mulv. rewrite <- sum_minus. apply sum_ext. intros; ring. Qed.

Lemma mulv_scale : forall n K c u i, mulv n K (fun j => c * u j) i == c * mulv n K u i.
Proof. intros. unfold mulv. rewrite <- sum_scale. apply sum_ext. intros; ring. Qed.

Lemma mulv_mplus : forall n K K' u i, mulv n (fun i j => K i j + K' i j) u i == mulv n K u i + mulv n K' u i.
Proof. intros. unfold mulv. rewrite <- sum_plus. apply sum_ext. intros; ring. Qed.

Lemma energy_ext : forall n K K' u u', (forall i j, (i < n)%nat -> (j < n)%nat -> K i j == K' i j) ->
  (forall j, (j < n)%nat -> u j == u' j) -> energy n K u == energy n K' u'.
Proof.
  intros n K K' u u' HK Hu. unfold energy, dot. apply sum_ext. intros i Hi.
  rewrite Hu, (mulv_ext n K K' u u' i) by auto. reflexivity.
Qed.

Lemma energy_mplus : forall n K K' u, energy n (fun i j => K i j + K' i j) u == energy n K u + energy n K' u.
Proof.
  intros. unfold energy, dot. rewrite <- sum_plus. apply sum_ext. intros i Hi. rewrite mulv_mplus. ring.
Qed.

Lemma dot_sym : forall n u v, dot n u v == dot n v u.
Proof. intros. apply sum_ext. intros; ring. Qed.

(** Betti: with a symmetric matrix the work of one state's forces on the other is mutual. *)
Lemma symmetric_work : forall n K u v, symmetric n K -> dot n u (mulv n K v) == dot n v (mulv n K u).
Proof.
  intros n K u v SY. unfold dot, mulv.
  rewrite (sum_ext n _ (fun i => sum n (fun j => u i * (K i j * v j)))) by (intros; symmetry; apply sum_scale).
  rewrite sum_swap. apply sum_ext. intros j Hj. rewrite <- sum_scale. apply sum_ext. intros i Hi.
  rewrite (SY i j) by auto. ring.
Qed.
