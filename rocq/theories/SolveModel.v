(** Assembly, solution of the linear system, internal forces and result tables:
    openpile/core/kernel.py and openpile/winkler.py.  Vectors and matrices are functions of the
    index together with a size; floating-point rounding is not modelled. *)
From Coq Require Import List Bool Arith QArith Qabs.
From Verif Require Import Base LinAlg PileModel.
Import ListNotations.
Local Open Scope Q_scope.

(** ** kernel.py 698-714: jit_build, 3 dofs per node, 2 nodes per element *)
Definition block (e : nat) (k : mat) : mat := fun i j =>
  if ((3 * e <=? i) && (i <? 3 * e + 6) && ((3 * e <=? j) && (j <? 3 * e + 6)))%nat
  then k (i - 3 * e)%nat (j - 3 * e)%nat else 0.

Definition jit_build (n_elem : nat) (k : nat -> mat) : mat := fun i j => sum n_elem (fun e => block e (k e) i j).

(** kernel.py 777-785: [K[-p, -p] += v] on a matrix of size [n] *)
Definition add_diag (n p : nat) (v : Q) (K : mat) : mat := fun i j =>
  if (Nat.eqb i (n - p) && Nat.eqb j (n - p))%bool then K i j + v else K i j.

(** ** kernel.py 24-26: jit_solve.  A linear solver takes size, matrix and right-hand side and
    returns the solution, or None when it raises LinAlgError. *)
Definition solver := nat -> mat -> vec -> option vec.

(** Gaussian elimination: rows carry their coefficients and right-hand side. *)
Definition row := (list Q * Q)%type.

Fixpoint pick (rows : list row) : option (row * list row) :=
  match rows with
  | [] => None
  | r :: t => if Qeq_bool (hd 0 (fst r)) 0
              then match pick t with Some (p, rest) => Some (p, r :: rest) | None => None end
              else Some (r, t)
  end.

Definition sub_row (c : Q) (p r : list Q) : list Q := map (fun xy => Qred (snd xy - c * fst xy)) (combine p r).

Definition reduce (p r : row) : row :=
  let c := Qred (hd 0 (fst r) / hd 0 (fst p)) in
  (sub_row c (tl (fst p)) (tl (fst r)), Qred (snd r - c * snd p)).

Fixpoint ldot (a b : list Q) : Q :=
  match a, b with x :: a', y :: b' => x * y + ldot a' b' | _, _ => 0 end.

Fixpoint gauss (n : nat) (rows : list row) : option (list Q) :=
  match n with
  | O => Some []
  | S m => match pick rows with
           | None => None
           | Some (p, rest) =>
               match gauss m (map (reduce p) rest) with
               | None => None
               | Some xs => Some (Qred ((snd p - ldot (tl (fst p)) xs) / hd 0 (fst p)) :: xs)
               end
           end
  end.

Definition gauss_solver : solver := fun n A b =>
  option_map of_list (gauss n (map (fun i => (map (fun j => Qred (A i j)) (seq 0 n), Qred (b i))) (seq 0 n))).

(** ** kernel.py 68-84 numba_ix and 96-158 solve_equations *)
Definition numba_ix (K : mat) (rows cols : list nat) : mat := fun p q => K (nth p rows O) (nth q cols O).

Definition where_ (n : nat) (r : nat -> bool) : list nat := filter r (seq 0 n).

(** position of the first occurrence *)
Fixpoint index_of (g : nat) (l : list nat) : option nat :=
  match l with
  | [] => None
  | h :: t => if Nat.eqb h g then Some O else option_map S (index_of g t)
  end.

(** U[idx] = x *)
Definition assign (U : vec) (idx : list nat) (x : vec) : vec :=
  fun g => match index_of g idx with Some p => x p | None => U g end.

Definition solve_equations (solve : solver) (n : nat) (K : mat) (F U : vec) (restr : nat -> bool) : option (vec * vec) :=
  let fixed := where_ n restr in
  let free := where_ n (fun i => negb (restr i)) in
  let sol :=
    if existsb restr (seq 0 n) then
      let Fred := fun p => F (nth p free O)
                  - sum (length fixed) (fun q => numba_ix K free fixed p q * U (nth q fixed O)) in
      option_map (assign U free) (solve (length free) (numba_ix K free free) Fred)
    else solve n K F in
  option_map (fun U' => (U', fun i => mulv n K U' i - F i)) sol.

(** ** kernel.py 87-93 and core/misc.py 70-76: doubling of the inner rows *)
Definition inner {A : Type} (l : list A) : list A := removelast (tl l).

Definition repeat_inner {A : Type} (l : list A) : list A :=
  match l, rev l with
  | a :: _, z :: _ => a :: flat_map (fun x => [x; x]) (inner l) ++ [z]
  | _, _ => []
  end.

Fixpoint pair_up {A : Type} (l : list A) : list (A * A) :=
  match l with
  | a :: b :: t => (a, b) :: pair_up t
  | _ => []
  end.

Definition stacked {A : Type} (nodes : list A) : list (A * A) := pair_up (repeat_inner nodes).

(** a node's three displacements *)
Definition triple := (Q * Q * Q)%type.
Definition node_rows (n_nodes : nat) (u : vec) : list triple :=
  map (fun i => (u (3 * i)%nat, u (3 * i + 1)%nat, u (3 * i + 2)%nat)) (seq 0 n_nodes).

Definition six (p : triple * triple) : vec :=
  let '((a, b, c), (d, e, f)) := p in of_list [a; b; c; d; e; f].

(** kernel.py 811-825: pile_internal_forces, one vector of six per element *)
Definition pile_internal_forces (n_nodes : nat) (k : nat -> mat) (u : vec) : list vec :=
  map (fun ep => fun i => -(1) * mulv 6 (k (fst ep)) (six (snd ep)) i)
      (combine (seq 0 (n_nodes - 1)) (stacked (node_rows n_nodes u))).

(** ** winkler.py 88-106: structural_forces_to_df; rows (elevation, N, V, M) *)
Definition force_rows (q : vec) (L : Q) : list (Q * Q * Q) :=
  [(- q 0%nat, - q 1%nat, - q 2%nat); (q 3%nat, q 4%nat, - q 2%nat + L * q 1%nat)].

Definition structural_forces (z : list Q) (q : list vec) (L : list Q) : list (Q * (Q * Q * Q)) :=
  combine (repeat_inner z) (flat_map (fun ql => force_rows (fst ql) (snd ql)) (combine q L)).

(** winkler.py 109-125: disp_to_df *)
Definition disp_rows (z : list Q) (u : vec) : list (Q * triple) := combine z (node_rows (length z) u).

(** ** winkler.py 67-85: reaction_forces_to_df *)
Definition mask (q : Q) : Q := if Qltb (Qabs q) (1#1000) then 0 else q.
Definition big (q : Q) : bool := Qltb (1#1000) (Qabs q).

Definition reaction_rows (rows : list (Q * triple)) : list (Q * triple) :=
  filter (fun r => let '(_, (a, b, c)) := r in big a || big b || big c)
    (map (fun r => let '(z, (a, b, c)) := r in (z, (mask a, mask b, mask c))) rows).

(** winkler.py 449-499: beam.  supports = restrained | (U != 0); [k] the mechanical matrices of the
    elements, model without soil. *)
Definition supports_of (restrained : nat -> bool) (U : vec) : nat -> bool :=
  fun i => restrained i || negb (Qeq_bool (U i) 0).

Definition beam (solve : solver) (n_elem : nat) (k : nat -> mat) (F U : vec) (restrained : nat -> bool) : option (vec * vec * list vec) :=
  option_map (fun dq => (fst dq, snd dq, pile_internal_forces (S n_elem) k (fst dq)))
    (solve_equations solve (3 * n_elem + 3) (jit_build n_elem k) F U (supports_of restrained U)).
