(** Shared vocabulary: Python results, exceptions and rational comparisons. *)
From Coq Require Import List Bool Arith ZArith QArith Qabs Qround Lia Lqa.
Import ListNotations.

(** Exceptions the modelled code can raise. *)
Inductive exn : Type :=
| ValueError | TypeError | IndexError | AttributeError | ZeroDivisionError
| UserInputError | InvalidBoundaryConditionsError | LinAlgError | UnboundLocalError.

(** Outcome of a Python call: a value or a raised exception. *)
Inductive res (A : Type) : Type :=
| Ok (a : A)
| Err (e : exn).
Arguments Ok {A} _.
Arguments Err {A} _.

Definition bind {A B : Type} (r : res A) (f : A -> res B) : res B :=
  match r with Ok a => f a | Err e => Err e end.

Definition is_ok {A : Type} (r : res A) : bool :=
  match r with Ok _ => true | Err _ => false end.

(** Rational comparisons as booleans ([==], [<=], [<] of Python floats, exact). *)
Definition Qltb (a b : Q) : bool := negb (Qle_bool b a).

Lemma Qeqb_true : forall a b, Qeq_bool a b = true <-> (a == b)%Q.
Proof. intros; apply Qeq_bool_iff. Qed.

Lemma Qeqb_false : forall a b, Qeq_bool a b = false <-> ~ (a == b)%Q.
Proof.
  intros a b; split; intros H.
  - intros E. apply Qeq_bool_iff in E. congruence.
  - destruct (Qeq_bool a b) eqn:E; auto. apply Qeq_bool_iff in E. tauto.
Qed.

Lemma Qleb_true : forall a b, Qle_bool a b = true <-> (a <= b)%Q.
Proof. intros; apply Qle_bool_iff. Qed.

Lemma Qleb_false : forall a b, Qle_bool a b = false <-> (b < a)%Q.
Proof.
  intros a b; split; intros H.
  - destruct (Qlt_le_dec b a) as [|L]; auto.
    apply Qle_bool_iff in L. congruence.
  - destruct (Qle_bool a b) eqn:E; auto.
    apply Qle_bool_iff in E. exfalso. apply (Qlt_not_le _ _ H E).
Qed.

Lemma Qltb_true : forall a b, Qltb a b = true <-> (a < b)%Q.
Proof. intros; unfold Qltb; rewrite negb_true_iff; apply Qleb_false. Qed.

Lemma Qltb_false : forall a b, Qltb a b = false <-> (b <= a)%Q.
Proof. intros; unfold Qltb; rewrite negb_false_iff; apply Qleb_true. Qed.

Lemma Qeqb_refl : forall a, Qeq_bool a a = true.
Proof. intros; apply Qeq_bool_iff; reflexivity. Qed.

Lemma Qeqb_sym : forall a b, Qeq_bool a b = Qeq_bool b a.
Proof.
  intros a b; destruct (Qeq_bool a b) eqn:E.
  - symmetry. apply Qeqb_true. apply Qeqb_true in E. symmetry; auto.
  - symmetry. apply Qeqb_false. apply Qeqb_false in E. intros C; apply E; symmetry; auto.
Qed.

Lemma Qeqb_trans : forall a b c,
  Qeq_bool a b = true -> Qeq_bool b c = true -> Qeq_bool a c = true.
Proof.
  intros a b c H1 H2. apply Qeqb_true in H1, H2. apply Qeqb_true.
  rewrite H1; auto.
Qed.

(** Assignment [l[i] = v] for an index within bounds (unchanged otherwise). *)
Fixpoint set_nth {A : Type} (i : nat) (v : A) (l : list A) : list A :=
  match l, i with
  | [], _ => []
  | _ :: t, O => v :: t
  | h :: t, S j => h :: set_nth j v t
  end.

Lemma set_nth_length : forall A i (v : A) l, length (set_nth i v l) = length l.
Proof.
  intros A i v l; revert i; induction l; intros [|i]; simpl; auto.
Qed.

Lemma nth_error_set_nth : forall A i j (v : A) l,
  nth_error (set_nth i v l) j =
  if Nat.eqb i j then (if Nat.ltb i (length l) then Some v else None)
  else nth_error l j.
Proof.
  intros A i j v l; revert i j; induction l as [|h t IH]; intros i j.
  - simpl. destruct (Nat.eqb i j) eqn:E.
    + apply Nat.eqb_eq in E; subst. destruct j; auto.
    + destruct i, j; auto.
  - destruct i, j; simpl; auto.
    rewrite IH. reflexivity.
Qed.

Lemma set_nth_app : forall A i (v : A) l1 l2, (i < length l1)%nat ->
  set_nth i v (l1 ++ l2) = set_nth i v l1 ++ l2.
Proof.
  intros A i v l1; revert i; induction l1 as [|h t IH]; intros [|i] l2 H; simpl in *; try lia; auto.
  rewrite IH; auto; lia.
Qed.
