(** Proofs about the whole analysis. *)
From Coq Require Import List Bool Arith ZArith QArith Qabs Lia Lqa Permutation.
From Verif Require Import Base LinAlg SpringModel PileModel PileSpec PileProofs MeshModel MeshSpec MeshProofs StressModel StressSpec StressProofs
  WeightProofs GridProofs ShaftProofs BeamModel BeamSpec BeamProofs SolveModel SolveSpec SolveProofs ForceProofs SpringProofs BCModel BCSpec BCProofs CreateModel WholeModel WholeSpec.
Import ListNotations.
Local Open Scope Q_scope.

(** ** sums of a column *)
Definition wsum (w : nat -> Q) (c : list Q) : Q := sum (length c) (fun i => w i * nth i c 0).

Lemma nth_set_nth : forall i j (v : Q) l, nth j (set_nth i v l) 0 = if (Nat.eqb i j && (i <? length l)%nat)%bool then v else nth j l 0.
Proof.
  intros i j v l. pose proof (nth_error_set_nth Q i j v l) as H.
  destruct (Nat.eqb i j) eqn:E; cbn [andb].
  - apply Nat.eqb_eq in E. subst j. destruct (i <? length l)%nat eqn:L.
    + apply nth_error_nth with (d := 0) in H. exact H.
    + apply Nat.ltb_ge in L. rewrite !nth_overflow; auto. rewrite set_nth_length. exact L.
  - destruct (nth_error l j) as [x|] eqn:X.
    + rewrite (nth_error_nth _ _ 0 H). symmetry. apply nth_error_nth. exact X.
    + apply nth_error_None in X. rewrite !nth_overflow; auto. rewrite set_nth_length. exact X.
Qed.

Lemma wsum_set : forall w c i v, (i < length c)%nat -> nth i c 0 == 0 -> wsum w (set_nth i v c) == wsum w c + w i * v.
Proof.
  intros w c i v L Z. unfold wsum. rewrite set_nth_length.
  transitivity (sum (length c) (fun j => w j * nth j c 0 + (if Nat.eqb j i then w j * v else 0))).
  - apply sum_ext. intros j Hj. rewrite nth_set_nth. apply Nat.ltb_lt in L. rewrite L, Nat.eqb_sym.
    destruct (Nat.eqb j i) eqn:E; cbn [andb]; [|ring]. apply Nat.eqb_eq in E. subst j. rewrite Z. ring.
  - rewrite sum_plus. rewrite (sum_delta (length c) i (fun j => w j * v) L). reflexivity.
Qed.

Definition bc_contribution (cast : Q -> Q) (nodes : list Q) (k : kind) (a : axis) (w : nat -> Q) (b : bc) : Q :=
  if kind_eqb (bc_kind b) k then
    match first_close nodes (bc_elev b), truthy (get_axis a b) with
    | Some i, Some q => w i * cast q
    | _, _ => 0
    end
  else 0.

Lemma apply_total : forall cast nodes k a w l t, length (col a t) = length nodes -> separate nodes l ->
  (forall b i, In b l -> bc_kind b = k -> maps_to nodes (bc_elev b) i -> nth i (col a t) 0 == 0) ->
  wsum w (col a (apply_bc cast nodes k l t)) == wsum w (col a t) + Qsum (map (bc_contribution cast nodes k a w) l).
Proof.
  intros cast nodes k a w l. induction l as [|b l IH]; intros t HL HS HZ.
  - cbn [apply_bc fold_left map]. unfold Qsum; cbn [fold_right]. ring.
  - change (apply_bc cast nodes k (b :: l) t) with (apply_bc cast nodes k l (apply_one cast nodes k t b)).
    inversion HS as [|b0 l0 HB HS']; subst b0 l0.
    rewrite IH; auto.
    + cbn [map]. rewrite Qsum_cons. rewrite col_apply_one. unfold bc_contribution at 2.
      destruct (kind_eqb (bc_kind b) k) eqn:K; [|ring].
      destruct (first_close nodes (bc_elev b)) as [i|] eqn:F; [|ring]. unfold write.
      destruct (truthy (get_axis a b)) as [q|] eqn:T; [|ring].
      apply first_close_iff in F. apply kind_eqb_eq in K.
      rewrite wsum_set; [ring| |].
      * rewrite HL. exact (maps_to_bound _ _ _ F).
      * apply (HZ b); auto. left; auto.
    + rewrite <- HL. rewrite col_apply_one. destruct (kind_eqb _ _); auto. destruct (first_close _ _); auto. apply write_length.
    + intros b' i Hb Kb Mb. 
      assert (E : nth_error (col a (apply_one cast nodes k t b)) i = nth_error (col a t) i).
      { apply apply_one_frame. intros [Kb0 M0]. rewrite Forall_forall in HB. refine (HB b' Hb _ i M0 Mb). congruence. }
      destruct (nth_error (col a t) i) as [x|] eqn:X.
      * rewrite (nth_error_nth _ _ 0 E). rewrite <- (nth_error_nth _ _ 0 X). apply (HZ b'); auto. right; auto.
      * apply nth_error_None in E. rewrite nth_overflow; auto. reflexivity.
Qed.

Lemma wsum_zeros : forall w (nodes : list Q), wsum w (map (fun _ => 0) nodes) == 0.
Proof.
  intros w nodes. unfold wsum. apply sum_zero. intros i Hi. rewrite map_length in Hi.
  assert (E : nth i (map (fun _ : Q => 0) nodes) 0 = 0).
  { destruct (nth_error nodes i) as [x|] eqn:X; [|apply nth_error_None in X; lia].
    apply nth_error_nth. rewrite nth_error_map, X. reflexivity. }
  rewrite E. ring.
Qed.

Lemma nth_zeros : forall (nodes : list Q) i, nth i (map (fun _ : Q => 0) nodes) 0 = 0.
Proof.
  intros nodes i. destruct (nth_error nodes i) as [x|] eqn:X.
  - apply nth_error_nth. rewrite nth_error_map, X. reflexivity.
  - apply nth_error_None in X. apply nth_overflow. rewrite map_length. exact X.
Qed.

Lemma column_total : forall cast nodes k a w l, separate nodes l ->
  wsum w (col a (apply_bc cast nodes k l (zeros nodes))) == Qsum (map (bc_contribution cast nodes k a w) l).
Proof.
  intros. rewrite apply_total; auto.
  - rewrite zeros_col, wsum_zeros. ring.
  - rewrite zeros_col, map_length. reflexivity.
  - intros. rewrite zeros_col, nth_zeros. reflexivity.
Qed.

Lemma load_contribution : forall nodes a b, at_node nodes b -> whole_load b -> is_load b = true -> forall w g,
  (forall i z, nth_error nodes i = Some z -> w i == g z) -> (forall x y, x == y -> g x == g y) ->
  bc_contribution int_cast nodes Force a w b == g (bc_elev b) * component_of a b.
Proof.
  intros nodes a b (i & z & M & N & E) W L w g HW HG. unfold bc_contribution, component_of.
  unfold is_load in L. destruct (bc_kind b) eqn:K; try discriminate. cbn [kind_eqb].
  apply first_close_iff in M. rewrite M. destruct (get_axis a b) as [q|] eqn:A; cbn [truthy].
  - destruct (Qeq_bool q 0) eqn:Z.
    + apply Qeqb_true in Z. rewrite Z. ring.
    + destruct (W a q A) as [k Hk]. rewrite (int_cast_whole q k Hk), (HW i z N), (HG z _ E). reflexivity.
  - ring.
Qed.

Lemma total_of_loads : forall nodes a w g l, separate nodes l ->
  (forall b, In b l -> is_load b = true -> at_node nodes b /\ whole_load b) ->
  (forall i z, nth_error nodes i = Some z -> w i == g z) -> (forall x y, x == y -> g x == g y) ->
  wsum w (col a (apply_bc int_cast nodes Force l (zeros nodes))) == Qsum (map (fun b => g (bc_elev b) * component_of a b) (loads l)).
Proof.
  intros nodes a w g l S H HW HG. rewrite column_total by exact S. clear S. induction l as [|b l IH].
  - reflexivity.
  - cbn [map]. rewrite Qsum_cons. rewrite IH by (intros; apply H; [right|]; auto).
    unfold loads. cbn [filter]. destruct (is_load b) eqn:B.
    + cbn [map]. rewrite Qsum_cons. destruct (H b (or_introl eq_refl) B) as [A1 A2].
      rewrite (load_contribution nodes a b A1 A2 B w g HW HG). reflexivity.
    + unfold bc_contribution at 1. unfold is_load in B. destruct (bc_kind b); try discriminate; cbn [kind_eqb]; ring.
Qed.

(** ** dof vectors *)
Lemma dof0 : forall t i, dof_vector t (3 * i)%nat = nth i (col AZ t) 0.
Proof.
  intros t i. unfold dof_vector. replace (3 * i)%nat with (i * 3)%nat by lia. rewrite Nat.div_mul, Nat.mod_mul by lia. reflexivity.
Qed.
Lemma dof1 : forall t i, dof_vector t (3 * i + 1)%nat = nth i (col AY t) 0.
Proof.
  intros t i. unfold dof_vector. replace (3 * i + 1)%nat with (1 + i * 3)%nat by lia. rewrite Nat.div_add, Nat.mod_add by lia. reflexivity.
Qed.
Lemma dof2 : forall t i, dof_vector t (3 * i + 2)%nat = nth i (col AX t) 0.
Proof.
  intros t i. unfold dof_vector. replace (3 * i + 2)%nat with (2 + i * 3)%nat by lia. rewrite Nat.div_add, Nat.mod_add by lia. reflexivity.
Qed.

Definition dof (i : nat) (a : axis) : nat := match a with AZ => (3 * i)%nat | AY => (3 * i + 1)%nat | AX => (3 * i + 2)%nat end.

Lemma dof_col : forall t i a, dof_vector t (dof i a) = nth i (col a t) 0.
Proof. intros t i []; [apply dof2|apply dof1|apply dof0]. Qed.

(** ** supports *)
Lemma column_nonzero : forall cast nodes k l a i, (i < length nodes)%nat -> (forall q, ~ q == 0 -> ~ cast q == 0) ->
  (~ nth i (col a (apply_bc cast nodes k l (zeros nodes))) 0 == 0 <-> exists b q, In b l /\ sends nodes k i a b q).
Proof.
  intros cast nodes k l a i L C. destruct (apply_bc_column cast nodes k l a i L) as [(q & S & V)|(N & V)];
    rewrite (nth_error_nth _ _ 0 V).
  - destruct S as (l1 & b & l2 & -> & S & _). split; intros H.
    + exists b, q. split; [apply in_or_app; right; left; auto|exact S].
    + apply C. apply S.
  - split; intros H; [exfalso; apply H; reflexivity|]. destruct H as (b & q & Hb & S). exfalso. exact (N b q Hb S).
Qed.

Lemma support_flags : forall nodes l td tr i a, (i < length nodes)%nat ->
  global_disp nodes l = Ok td -> global_restrained nodes l = Ok tr ->
  (supports_of (dof_flags tr) (dof_vector td) (dof i a) = true <-> supported nodes l i a).
Proof.
  intros nodes l td tr i a L HD HR. unfold global_disp, global_restrained in *.
  destruct (validate_bc l Displacement); [|discriminate]. destruct (validate_bc l Fixation); [|discriminate].
  cbn [bind] in *. injection HD as <-. injection HR as <-.
  unfold supports_of, dof_flags. rewrite orb_true_iff, !negb_true_iff, !Qeqb_false, !dof_col.
  rewrite (column_nonzero (fun q => q) nodes Displacement l a i L) by auto.
  rewrite (column_nonzero (fun _ => 1) nodes Fixation l a i L) by (intros; discriminate).
  unfold supported. split.
  - intros [(b & q & H & X)|(b & q & H & X)]; exists b, q; auto.
  - intros (b & q & H & [X|X]); [left|right]; exists b, q; auto.
Qed.

Lemma supported_bound : forall nodes l i a, supported nodes l i a -> (i < length nodes)%nat.
Proof. intros nodes l i a (b & q & _ & [(_ & M & _)|(_ & M & _)]); exact (maps_to_bound _ _ _ M). Qed.

Lemma held_iff : forall nodes l n td tr, length nodes = S n -> global_disp nodes l = Ok td -> global_restrained nodes l = Ok tr ->
  (held n (supports_of (dof_flags tr) (dof_vector td)) <-> holds_pile nodes l).
Proof.
  intros nodes l n td tr L HD HR.
  assert (FL : forall i a, (i <= n)%nat -> (supports_of (dof_flags tr) (dof_vector td) (dof i a) = true <-> supported nodes l i a)).
  { intros i a Hi. apply support_flags; auto. lia. }
  assert (BD : forall i a, supported nodes l i a -> (i <= n)%nat).
  { intros i a H. apply supported_bound in H. lia. }
  unfold held, holds_pile. split.
  - intros [(a & Ha & A) (b & Hb & B & C)]. split.
    + exists a. apply (FL a AZ Ha). exact A.
    + exists b. split; [apply (FL b AY Hb); exact B|]. destruct C as [(c & Hc & C)|(c & Hc & N & C)].
      * left. exists c. apply (FL c AX Hc). exact C.
      * right. exists c. split; [exact N|]. apply (FL c AY Hc). exact C.
  - intros [(a & A) (b & B & C)]. split.
    + exists a. split; [exact (BD _ _ A)|]. apply (FL a AZ (BD _ _ A)). exact A.
    + exists b. split; [exact (BD _ _ B)|]. split; [apply (FL b AY (BD _ _ B)); exact B|].
      destruct C as [(c & C)|(c & N & C)].
      * left. exists c. split; [exact (BD _ _ C)|]. apply (FL c AX (BD _ _ C)). exact C.
      * right. exists c. split; [exact (BD _ _ C)|]. split; [exact N|]. apply (FL c AY (BD _ _ C)). exact C.
Qed.

(** ** element matrices *)
Lemma Qabs_same : forall x, 0 <= x -> Qabs x = x.
Proof. intros [n d] H. unfold Qle in H. cbn in H. unfold Qabs. rewrite Z.abs_eq by lia. reflexivity. Qed.

Lemma elem_value_ok : forall f l p s elems e x, proper l -> make_pile l = Ok p -> In s p ->
  nth_error elems e = Some x -> in_section s x -> elem_value f p elems e = Some (f s).
Proof.
  intros. unfold elem_value. apply nth_error_nth. eapply p2e_value; eauto.
Qed.

Lemma all_some_ok : forall A (l : list (option A)) r d, all_some l = Some r ->
  length r = length l /\ forall i, (i < length l)%nat -> nth i l None = Some (nth i r d).
Proof.
  induction l as [|[a|] l IH]; intros r d H; cbn [all_some] in H.
  - injection H as <-. split; auto. intros i Hi; cbn in Hi; lia.
  - destruct (all_some l) as [r'|]; [|discriminate]. injection H as <-. destruct (IH r' d eq_refl) as [E G].
    split; [cbn; congruence|]. intros [|i] Hi; cbn [nth]; auto. apply G. cbn in Hi. lia.
  - discriminate.
Qed.

Lemma all_some_exists : forall A (l : list (option A)), (forall i, (i < length l)%nat -> nth i l None <> None) -> exists r, all_some l = Some r.
Proof.
  induction l as [|x l IH]; intros H; [exists []; reflexivity|].
  destruct x as [a|]; [|exfalso; apply (H O); [cbn; lia|reflexivity]].
  destruct IH as [r E]; [intros i Hi; apply (H (S i)); cbn; lia|]. exists (a :: r). cbn. rewrite E. reflexivity.
Qed.

Lemma collect_exists : forall A n (f : nat -> res A), (forall e, (e < n)%nat -> exists a, f e = Ok a) -> exists l, collect n f = Ok l.
Proof.
  induction n as [|n IH]; intros f H; [exists []; reflexivity|].
  destruct (IH f) as [l E]; [intros; apply H; lia|]. destruct (H n) as [a Ea]; [lia|].
  exists (l ++ [a]). cbn. rewrite E. cbn. rewrite Ea. reflexivity.
Qed.

Section Sound.
Variables (ty : elem_type) (circ : bool) (E nu : Q) (p : list section) (m : list Q).
Let elems := elements_of m.
Let z := fun a => nth a (nodes_of m) 0.
(** every element lies in a section with positive stiffness *)
Hypothesis HE : forall e x, nth_error elems e = Some x -> snd x < fst x /\
  exists s, 0 < s_inertia s /\ 0 < s_area s /\ 0 < s_width s /\
    forall f, elem_value f p elems e = Some (f s).
Hypothesis HT : ty = Timoshenko -> circ = true.

Lemma elem_z : forall e, (e < length elems)%nat -> nth_error elems e = Some (z e, z (S e)) /\ elem_length elems e = z e - z (S e) /\ 0 < z e - z (S e).
Proof.
  intros e He. destruct (nth_error elems e) as [[t b]|] eqn:X; [|apply nth_error_None in X; lia].
  destruct (HE e (t, b) X) as [P _]. cbn [fst snd] in P.
  pose proof (proj1 (elements_nth m e t b) X) as [A B].
  assert (ZA : z e = t) by (apply nth_error_nth; exact A).
  assert (ZB : z (S e) = b) by (apply nth_error_nth; exact B).
  rewrite ZA, ZB. split; [reflexivity|]. split; [|lra].
  unfold elem_length. rewrite (nth_error_nth _ _ (0, 0) X). cbn [fst snd]. apply Qabs_same. lra.
Qed.

Definition sec_of (e : nat) (J A d wt : Q) : Prop := 0 < J /\ 0 < A /\ 0 < d.

Lemma matrix_of : forall e, (e < length elems)%nat -> exists J A d wt k, 0 < J /\ 0 < A /\ 0 < d /\
  elem_mech ty circ E nu J A d wt (z e - z (S e)) = Ok k /\ elem_matrix ty circ E nu p elems e = Ok (Some k).
Proof.
  intros e He. destruct (elem_z e He) as (X & LE & LP). destruct (HE e _ X) as [_ (s & PJ & PA & PD & V)].
  unfold elem_matrix. rewrite LE. destruct ty eqn:T.
  - exists (s_inertia s), (s_area s), 1, 0. rewrite !V. unfold elem_mech. cbn [shear_kappa bind].
    eexists. split; [exact PJ|]. split; [exact PA|]. split; [reflexivity|]. split; reflexivity.
  - rewrite (HT eq_refl). rewrite !V. exists (s_inertia s), (s_area s), (s_width s), (thickness s).
    unfold elem_mech. cbn [shear_kappa bind].
    eexists. split; [exact PJ|]. split; [exact PA|]. split; [exact PD|]. split; reflexivity.
Qed.

Lemma matrices_exist : exists ks, elem_matrices ty circ E nu p elems = Ok (Some ks).
Proof.
  unfold elem_matrices. destruct (collect_exists _ (length elems) (elem_matrix ty circ E nu p elems)) as [l H].
  { intros e He. destruct (matrix_of e He) as (J & A & d & wt & k & _ & _ & _ & _ & M). eauto. }
  rewrite H. cbn [bind]. destruct (collect_ok _ _ l None H) as [LL LN].
  destruct (all_some_exists _ l) as [r R].
  { intros i Hi. rewrite LL in Hi. destruct (matrix_of i Hi) as (J & A & d & wt & k & _ & _ & _ & _ & M).
    rewrite (LN i Hi) in M. congruence. }
  exists r. rewrite R. reflexivity.
Qed.

Lemma matrices_ok : forall ks, elem_matrices ty circ E nu p elems = Ok (Some ks) ->
  exists J A d wt, forall e, (e < length elems)%nat -> 0 < J e /\ 0 < A e /\ 0 < d e /\ z (S e) < z e /\
    elem_mech ty circ E nu (J e) (A e) (d e) (wt e) (z e - z (S e)) = Ok (nth e ks no_mat).
Proof.
  intros ks H. unfold elem_matrices in H. destruct (collect _ _) as [l|] eqn:C; cbn [bind] in H; [|discriminate].
  injection H as H. destruct (collect_ok _ _ l None C) as [LL LN]. destruct (all_some_ok _ l ks no_mat H) as [KL KN].
  exists (fun e => match elem_value s_inertia p elems e with Some x => x | None => 0 end),
         (fun e => match elem_value s_area p elems e with Some x => x | None => 0 end),
         (fun e => match ty with EulerBernoulli => 1 | Timoshenko => match elem_value s_width p elems e with Some x => x | None => 0 end end),
         (fun e => match ty with EulerBernoulli => 0 | Timoshenko => match elem_value thickness p elems e with Some x => x | None => 0 end end).
  intros e He. destruct (elem_z e He) as (X & LE & LP). destruct (HE e _ X) as [_ (s & PJ & PA & PD & V)].
  assert (K : elem_matrix ty circ E nu p elems e = Ok (Some (nth e ks no_mat))).
  { rewrite (LN e He). f_equal. apply KN. rewrite LL. exact He. }
  unfold elem_matrix in K. rewrite LE in K. rewrite !V in *. destruct ty eqn:T.
  - split; [exact PJ|]. split; [exact PA|]. split; [reflexivity|]. split; [lra|].
    destruct (elem_mech _ _ _ _ _ _ _ _ _) as [k|] eqn:M; cbn [bind] in K; congruence.
  - rewrite (HT eq_refl) in *. split; [exact PJ|]. split; [exact PA|]. split; [exact PD|]. split; [lra|].
    destruct (elem_mech _ _ _ _ _ _ _ _ _) as [k|] eqn:M; cbn [bind] in K; congruence.
Qed.
End Sound.

(** ** rows of a table *)
Lemma rows_sum : forall (h : Q * triple -> Q) (g : nat -> triple) nodes s,
  Qsum (map h (combine nodes (map g (seq s (length nodes))))) == sum (length nodes) (fun i => h (nth i nodes 0, g (s + i)%nat)).
Proof.
  intros h g nodes. induction nodes as [|x nodes IH]; intros s; [reflexivity|].
  cbn [length seq map combine]. rewrite Qsum_cons, IH, sum_first. cbn [nth]. rewrite Nat.add_0_r.
  apply Qplus_comp; [reflexivity|]. apply sum_ext. intros i Hi. replace (S s + i)%nat with (s + S i)%nat by lia. reflexivity.
Qed.

Lemma disp_rows_sum : forall (h : Q * triple -> Q) nodes u,
  Qsum (map h (disp_rows nodes u)) == sum (length nodes) (fun i => h (nth i nodes 0, (u (3 * i)%nat, u (3 * i + 1)%nat, u (3 * i + 2)%nat))).
Proof. intros. unfold disp_rows, node_rows. rewrite rows_sum. reflexivity. Qed.

Lemma disp_rows_nth : forall nodes u i z, nth_error nodes i = Some z ->
  nth_error (disp_rows nodes u) i = Some (z, (u (3 * i)%nat, u (3 * i + 1)%nat, u (3 * i + 2)%nat)).
Proof.
  intros nodes u i z H. unfold disp_rows, node_rows.
  assert (G : forall ns s j, nth_error ns j = Some z -> nth_error (combine ns (map (fun i0 => (u (3 * i0)%nat, u (3 * i0 + 1)%nat, u (3 * i0 + 2)%nat)) (seq s (length ns)))) j
     = Some (z, (u (3 * (s + j))%nat, u (3 * (s + j) + 1)%nat, u (3 * (s + j) + 2)%nat))).
  { induction ns as [|x ns IH]; intros s j Hj; [destruct j; discriminate|].
    destruct j as [|j]; cbn [length seq map combine nth_error] in *.
    - injection Hj as ->. rewrite Nat.add_0_r. reflexivity.
    - rewrite (IH (S s) j Hj). replace (S s + j)%nat with (s + S j)%nat by lia. reflexivity. }
  exact (G nodes O i H).
Qed.

(** ** the analysis *)
Lemma nodes_elems_count : forall m, m <> [] -> length (nodes_of m) = S (length (elements_of m)).
Proof.
  intros m HM. unfold nodes_of. rewrite map_length, elements_length. destruct m; [congruence|cbn; lia].
Qed.

Section Analysis.
Variables (solve : solver) (ty : elem_type) (circ : bool) (E nu : Q) (p : list section) (m : list Q) (l : list bc).
Hypothesis SO : solver_ok solve.
Hypothesis PE : 0 < E.
Hypothesis PN : -(3#4) <= nu.
Let elems := elements_of m.
Let nodes := nodes_of m.
Hypothesis HE : forall e x, nth_error elems e = Some x -> snd x < fst x /\
  exists s, 0 < s_inertia s /\ 0 < s_area s /\ 0 < s_width s /\ forall f, elem_value f p elems e = Some (f s).
Hypothesis HT : ty = Timoshenko -> circ = true.
Hypothesis HM : m <> [].
Hypothesis HV : forall k, validate_bc l k = Ok tt.

Lemma nodes_elems : length nodes = S (length elems).
Proof using HM. exact (nodes_elems_count m HM). Qed.

Lemma tables_exist : exists tf td tr, global_forces nodes l = Ok tf /\ global_disp nodes l = Ok td /\ global_restrained nodes l = Ok tr /\
  tf = apply_bc int_cast nodes Force l (zeros nodes).
Proof using HV.
  unfold global_forces, global_disp, global_restrained. rewrite !HV. cbn [bind]. repeat eexists.
Qed.

Lemma solved_or_not : exists tf td tr ks, global_forces nodes l = Ok tf /\ global_disp nodes l = Ok td /\ global_restrained nodes l = Ok tr /\
  elem_matrices ty circ E nu p elems = Ok (Some ks) /\
  match beam solve (length elems) (fun e => nth e ks no_mat) (dof_vector tf) (dof_vector td) (dof_flags tr) with
  | None => beam_tables solve ty circ E nu p m l = Err LinAlgError /\ ~ holds_pile nodes l
  | Some (d, R, q) => beam_tables solve ty circ E nu p m l =
       Ok (Some {| t_d := d; t_Q := R; t_disp := disp_rows nodes d;
                   t_forces := structural_forces nodes q (map (elem_length elems) (seq 0 (length elems)));
                   t_reac := reaction_rows (disp_rows nodes R) |}) /\ holds_pile nodes l
  end.
Proof using SO PE PN HE HT HM HV.
  destruct tables_exist as (tf & td & tr & F & D & R & _).
  destruct (matrices_exist ty circ E nu p m HE HT) as [ks K]. fold elems in K.
  exists tf, td, tr, ks. split; [exact F|]. split; [exact D|]. split; [exact R|]. split; [exact K|].
  destruct (matrices_ok ty circ E nu p m HE HT ks K) as (J & A & d & wt & X).
  pose proof (pile_beam_succeeds solve (length elems) ty circ E nu J A d wt _ (fun e => nth e ks no_mat) (dof_vector tf) (dof_vector td) (dof_flags tr) SO PE PN X) as B.
  rewrite (held_iff nodes l (length elems) td tr nodes_elems D R) in B.
  destruct (beam solve (length elems) (fun e => nth e ks no_mat) (dof_vector tf) (dof_vector td) (dof_flags tr)) as [[[dd RR] q]|] eqn:BE.
  - split; [|apply B; eauto].
    unfold beam_tables. fold nodes elems. rewrite F, D, R, K. cbn [bind]. rewrite BE. reflexivity.
  - split.
    + unfold beam_tables. fold nodes elems. rewrite F, D, R, K. cbn [bind]. rewrite BE. reflexivity.
    + intros H. apply B in H. destruct H as [r H]. congruence.
Qed.

Lemma result_facts : forall r, beam_tables solve ty circ E nu p m l = Ok (Some r) ->
  exists tf td tr, global_forces nodes l = Ok tf /\ global_disp nodes l = Ok td /\ global_restrained nodes l = Ok tr /\
  let n := length elems in let G := fun i => dof_vector tf i + t_Q r i in let z := fun a => nth a nodes 0 in
  (forall i, (i < 3 * n + 3)%nat -> supports_of (dof_flags tr) (dof_vector td) i = false -> t_Q r i == 0) /\
  (forall i, (i < 3 * n + 3)%nat -> supports_of (dof_flags tr) (dof_vector td) i = true -> t_d r i = dof_vector td i) /\
  ((1 <= n)%nat -> axial_above G n == 0 /\ shear_above G n == 0 /\ forall at_z, moment_above z G n at_z == 0) /\
  t_disp r = disp_rows nodes (t_d r) /\ t_reac r = reaction_rows (disp_rows nodes (t_Q r)).
Proof using SO PE PN HE HT HM HV.
  intros r H. destruct solved_or_not as (tf & td & tr & ks & F & D & R & K & B).
  destruct (beam _ _ _ _ _ _) as [[[d RR] q]|] eqn:BE; [|destruct B; congruence].
  destruct B as [B _]. rewrite B in H. injection H as <-. exists tf, td, tr. split; [exact F|]. split; [exact D|]. split; [exact R|].
  cbn [t_d t_Q t_disp t_reac]. destruct (beam_sound _ _ _ _ _ _ _ _ _ SO BE) as (_ & B2 & B3).
  split; [|split; [|split; [|split; reflexivity]]].
  - intros i Hi S. apply B2; auto; unfold supports_of in S; apply orb_false_iff in S; destruct S as [S1 S2]; [exact S1|].
    apply negb_false_iff in S2. apply Qeqb_true in S2. exact S2.
  - intros i Hi S. apply B3; auto. unfold supports_of in S. apply orb_true_iff in S. destruct S as [S|S]; [left; exact S|right].
    apply negb_true_iff in S. apply Qeqb_false in S. exact S.
  - intros Hn. destruct (matrices_ok ty circ E nu p m HE HT ks K) as (J & A & dd & wt & X).
    exact (pile_equilibrium solve (length elems) ty circ E nu J A dd wt _ _ _ _ _ _ _ _ SO PE PN Hn X BE).
Qed.

(** equilibrium of the given loads with the reactions *)
Lemma load_balance : forall r, beam_tables solve ty circ E nu p m l = Ok (Some r) -> (1 <= length elems)%nat ->
  separate nodes l -> (forall b, In b l -> is_load b = true -> at_node nodes b /\ whole_load b) ->
  let rows := disp_rows nodes (t_Q r) in
  total_load AZ l + rows_axial rows == 0 /\ total_load AY l + rows_lateral rows == 0 /\
  forall z0, total_load_moment z0 l + rows_moment z0 rows == 0.
Proof using SO PE PN HE HT HM HV.
  intros r H Hn S W rows. destruct (result_facts r H) as (tf & td & tr & F & D & R & _ & _ & EQ & _ & _).
  destruct tables_exist as (tf' & _ & _ & F' & _ & _ & TF). rewrite F in F'. injection F' as <-.
  destruct (EQ Hn) as (QA & QS & QM). clear EQ.
  assert (LC : forall a, length (col a tf) = length nodes) by (intros a; rewrite TF, apply_bc_col_length, zeros_col, map_length; reflexivity).
  assert (TW : forall a w g, (forall i z, nth_error nodes i = Some z -> w i == g z) -> (forall x y, x == y -> g x == g y) ->
     sum (length nodes) (fun i => w i * nth i (col a tf) 0) == Qsum (map (fun b => g (bc_elev b) * component_of a b) (loads l))).
  { intros a w g HW HG. rewrite TF, <- (total_of_loads nodes a w g l S W HW HG). unfold wsum.
    rewrite <- TF, LC. reflexivity. }
  assert (T1 : forall a, sum (length nodes) (fun i => nth i (col a tf) 0) == total_load a l).
  { intros a. specialize (TW a (fun _ => 1) (fun _ => 1)). unfold total_load.
    transitivity (sum (length nodes) (fun i => 1 * nth i (col a tf) 0)); [apply sum_ext; intros; ring|].
    rewrite TW by (intros; reflexivity). apply Qsum_ext. intros; ring. }
  unfold axial_above in QA. unfold shear_above in QS. unfold moment_above in QM.
  rewrite <- nodes_elems in *. unfold rows, rows_axial, rows_lateral.
  split; [|split].
  - rewrite disp_rows_sum. cbn [fst snd]. rewrite <- T1, <- sum_plus, <- QA. apply sum_ext. intros i Hi. cbv beta. rewrite dof0. reflexivity.
  - rewrite disp_rows_sum. cbn [fst snd]. rewrite <- T1, <- sum_plus, <- QS. apply sum_ext. intros i Hi. cbv beta. rewrite dof1. reflexivity.
  - intros z0. unfold rows_moment. rewrite disp_rows_sum. cbn [fst snd].
    assert (TM : total_load_moment z0 l == sum (length nodes) (fun i => nth i (col AX tf) 0 + (z0 - nth i nodes 0) * nth i (col AY tf) 0)).
    { unfold total_load_moment. rewrite sum_plus, T1.
      rewrite (TW AY (fun i => z0 - nth i nodes 0) (fun x => z0 - x)).
      - unfold total_load. rewrite <- Qsum_plus. reflexivity.
      - intros i z Hz. rewrite (nth_error_nth _ _ 0 Hz). reflexivity.
      - intros x y Hxy. rewrite Hxy. reflexivity. }
    rewrite TM, <- sum_plus, <- (QM z0). apply sum_ext. intros i Hi. cbv beta. rewrite dof1, dof2. ring.
Qed.

(** displacements at supports and reactions away from them *)
Lemma node_results : forall r i, beam_tables solve ty circ E nu p m l = Ok (Some r) -> (i < length nodes)%nat ->
  forall a, (~ supported nodes l i a -> t_Q r (dof i a) == 0) /\
  (forall b q, In b l -> sends nodes Displacement i a b q -> separate nodes l -> t_d r (dof i a) = q) /\
  (supported nodes l i a -> (forall b q, In b l -> ~ sends nodes Displacement i a b q) -> t_d r (dof i a) = 0).
Proof using SO PE PN HE HT HM HV.
  intros r i H Hi a. destruct (result_facts r H) as (tf & td & tr & F & D & R & Q1 & Q2 & _).
  assert (B : (dof i a < 3 * length elems + 3)%nat) by (pose proof nodes_elems; destruct a; cbn; lia).
  assert (TD : td = apply_bc (fun q => q) nodes Displacement l (zeros nodes)).
  { unfold global_disp in D. rewrite HV in D. cbn [bind] in D. injection D as <-. reflexivity. }
  split; [|split].
  - intros N. apply Q1; auto. destruct (supports_of _ _ _) eqn:X; auto. apply (support_flags nodes l td tr i a Hi D R) in X. tauto.
  - intros b q Hb SD SP. rewrite Q2; auto.
    + rewrite dof_col, TD. destruct (apply_bc_column (fun q => q) nodes Displacement l a i Hi) as [(q' & S & V)|(N & _)]; [|exfalso; exact (N b q Hb SD)].
      rewrite (nth_error_nth _ _ 0 V). destruct S as (l1 & b' & l2 & -> & S' & _).
      destruct SD as (K & M & G & _). destruct S' as (K' & M' & G' & _).
      assert (b = b'); [|congruence]. clear - Hb SP K M K' M'.
      unfold separate in SP. induction l1 as [|x l1 IH]; cbn [app] in *.
      * inversion SP as [|x0 y0 HF HS]; subst. destruct Hb as [->|Hb]; auto. rewrite Forall_forall in HF.
        exfalso. refine (HF b Hb _ i M' M). congruence.
      * inversion SP as [|x0 y0 HF HS]; subst. destruct Hb as [->|Hb].
        -- rewrite Forall_forall in HF. exfalso. refine (HF b' _ _ i M M'); [apply in_or_app; right; left; auto|congruence].
        -- apply IH; auto.
    + apply (support_flags nodes l td tr i a Hi D R). exists b, q. auto.
  - intros S N. rewrite Q2; auto.
    + rewrite dof_col, TD. rewrite (nth_error_nth _ _ 0 (apply_bc_not_sent (fun q => q) nodes Displacement l a i Hi N)). reflexivity.
    + apply (support_flags nodes l td tr i a Hi D R). exact S.
Qed.
End Analysis.

(** ** the reaction table shows the reactions up to its threshold *)
Lemma mask_close : forall q, Qabs (mask q - q) <= 1#1000.
Proof.
  intros q. unfold mask. destruct (Qltb (Qabs q) (1#1000)) eqn:B.
  - apply Qltb_true in B. rewrite <- Qabs_opp. setoid_replace (- (0 - q)) with q by ring. lra.
  - setoid_replace (q - q) with 0 by ring. discriminate.
Qed.

Lemma small_hidden : forall q, big q = false -> Qabs q <= 1#1000.
Proof. intros q B. unfold big in B. apply Qltb_false in B. exact B. Qed.

Definition row_value (wa wl wm : Q -> Q) (r : Q * triple) : Q := let '(z, (a, b, c)) := r in wa z * a + wl z * b + wm z * c.

Lemma abs_scale_le : forall w x c, Qabs w <= c -> Qabs x <= 1#1000 -> Qabs (w * x) <= c * (1#1000).
Proof.
  intros w x c H1 H2. rewrite Qabs_Qmult. pose proof (Qabs_nonneg w). pose proof (Qabs_nonneg x). nra.
Qed.

Lemma reaction_table_close : forall wa wl wm C rows, (forall r, In r rows -> Qabs (wa (fst r)) + Qabs (wl (fst r)) + Qabs (wm (fst r)) <= C) ->
  Qabs (Qsum (map (row_value wa wl wm) (reaction_rows rows)) - Qsum (map (row_value wa wl wm) rows)) <= inject_Z (Z.of_nat (length rows)) * (C * (1#1000)).
Proof.
  intros wa wl wm C rows. induction rows as [|[z [[a b] c]] rows IH]; intros HC.
  - cbn. discriminate.
  - assert (HC' : forall r, In r rows -> Qabs (wa (fst r)) + Qabs (wl (fst r)) + Qabs (wm (fst r)) <= C) by (intros; apply HC; right; auto).
    specialize (IH HC'). specialize (HC _ (or_introl eq_refl)). cbn [fst] in HC. cbn [map]. rewrite Qsum_cons.
    assert (ND : inject_Z (Z.of_nat (length ((z, (a, b, c)) :: rows))) == 1 + inject_Z (Z.of_nat (length rows))).
    { cbn [length]. rewrite Nat2Z.inj_succ. unfold Z.succ. rewrite inject_Z_plus. apply Qplus_comm. }
    rewrite ND. clear ND.
    assert (DD : exists v, Qsum (map (row_value wa wl wm) (reaction_rows ((z, (a, b, c)) :: rows))) == v + Qsum (map (row_value wa wl wm) (reaction_rows rows)) /\
       Qabs (v - row_value wa wl wm (z, (a, b, c))) <= C * (1#1000)).
    { unfold reaction_rows at 1. cbn [map filter].
      destruct (big (mask a) || big (mask b) || big (mask c)) eqn:BG.
      - exists (row_value wa wl wm (z, (mask a, mask b, mask c))). split; [cbn [map]; rewrite Qsum_cons; reflexivity|].
        cbn [row_value]. setoid_replace (wa z * mask a + wl z * mask b + wm z * mask c - (wa z * a + wl z * b + wm z * c))
          with (wa z * (mask a - a) + wl z * (mask b - b) + wm z * (mask c - c)) by ring.
        pose proof (abs_scale_le (wa z) (mask a - a) _ (Qle_refl _) (mask_close a)).
        pose proof (abs_scale_le (wl z) (mask b - b) _ (Qle_refl _) (mask_close b)).
        pose proof (abs_scale_le (wm z) (mask c - c) _ (Qle_refl _) (mask_close c)).
        pose proof (Qabs_triangle (wa z * (mask a - a) + wl z * (mask b - b)) (wm z * (mask c - c))).
        pose proof (Qabs_triangle (wa z * (mask a - a)) (wl z * (mask b - b))). lra.
      - exists 0. split; [rewrite Qplus_0_l; reflexivity|]. apply orb_false_iff in BG. destruct BG as [BG BC]. apply orb_false_iff in BG. destruct BG as [BA BB].
        assert (MS : forall q, big (mask q) = false -> Qabs q <= 1#1000).
        { intros q Hq. unfold mask in Hq. destruct (Qltb (Qabs q) (1#1000)) eqn:B; [apply Qltb_true in B; lra|apply small_hidden; exact Hq]. }
        cbn [row_value]. rewrite <- Qabs_opp. setoid_replace (- (0 - (wa z * a + wl z * b + wm z * c))) with (wa z * a + wl z * b + wm z * c) by ring.
        pose proof (abs_scale_le (wa z) a _ (Qle_refl _) (MS a BA)).
        pose proof (abs_scale_le (wl z) b _ (Qle_refl _) (MS b BB)).
        pose proof (abs_scale_le (wm z) c _ (Qle_refl _) (MS c BC)).
        pose proof (Qabs_triangle (wa z * a + wl z * b) (wm z * c)).
        pose proof (Qabs_triangle (wa z * a) (wl z * b)). lra. }
    destruct DD as (v & -> & DV).
    setoid_replace (v + Qsum (map (row_value wa wl wm) (reaction_rows rows)) - (row_value wa wl wm (z, (a, b, c)) + Qsum (map (row_value wa wl wm) rows)))
      with ((v - row_value wa wl wm (z, (a, b, c))) + (Qsum (map (row_value wa wl wm) (reaction_rows rows)) - Qsum (map (row_value wa wl wm) rows))) by ring.
    eapply Qle_trans; [apply Qabs_triangle|]. lra.
Qed.

(** ** a meshed pile has a section for every element *)
Lemma meshed_nonempty : forall l s x c p t b m, meshed l s x c p t b m -> m <> [] /\ (1 <= length (elements_of m))%nat.
Proof.
  intros l s x c p t b m H. destruct H as [ST MP TP BT C MM GR SL XX].
  assert (P : proper l) by (intros y Hy; apply ST; exact Hy).
  destruct (model_tiled l p t b s x c m P MP TP BT C MM (grid_hyp p b s x BT GR) SL XX) as (CH & CB & _).
  assert (TB : b < t).
  { destruct (pile_top_in p t TP) as (s0 & H0 & E0). destruct (pile_range l p t b P MP TP BT s0 H0) as [A B].
    destruct (pile_fills l p P MP) as (PM & _).
    assert (s_bottom s0 < s_top s0) by (apply P; eapply Permutation_in; [apply Permutation_sym; eauto|auto]). lra. }
  assert (N : elements_of m <> []) by (intros X; rewrite X in CB; cbn in CB; lra).
  split; [intros ->; apply N; reflexivity|]. destruct (elements_of m); [congruence|cbn; lia].
Qed.

Lemma meshed_sections : forall l s x c p t b m, meshed l s x c p t b m ->
  forall e y, nth_error (elements_of m) e = Some y -> snd y < fst y /\
  exists q, In q l /\ in_section q y /\ 0 < s_inertia q /\ 0 < s_area q /\ 0 < s_width q /\ forall f, elem_value f p (elements_of m) e = Some (f q).
Proof.
  intros l s x c p t b m H e y Hy. destruct H as [ST MP TP BT C MM GR SL XX].
  assert (P : proper l) by (intros w Hw; apply ST; exact Hw).
  destruct (model_tiled l p t b s x c m P MP TP BT C MM (grid_hyp p b s x BT GR) SL XX) as (CH & CB & RS & _).
  assert (I : In y (elements_of m)) by (eapply nth_error_In; eauto).
  split; [exact (chain_pos _ _ _ CH I)|].
  destruct (pile_fills l p P MP) as (PM & _).
  assert (PP : proper p) by (intros w Hw; apply P; eapply Permutation_in; [apply Permutation_sym; eauto|auto]).
  assert (CP : connected p = true).
  { unfold make_pile in MP. destruct (Nat.eqb _ _); [discriminate|]. destruct (connected _) eqn:K; [|discriminate]. injection MP as <-. exact K. }
  destruct (element_section p t b (elements_of m) y PP CP TP BT CH CB (fun q Hq => proj2 (RS q Hq)) I) as (q & Hq & IN).
  exists q. assert (QL : In q l) by (eapply Permutation_in; [apply Permutation_sym; eauto|auto]).
  destruct (ST q QL) as (_ & S1 & S2 & S3). split; [exact QL|]. split; [exact IN|]. split; [exact S1|]. split; [exact S2|]. split; [exact S3|].
  intros f. exact (elem_value_ok f l p q (elements_of m) e y P MP Hq Hy IN).
Qed.

(** ** order of the boundary conditions *)
Lemma maps_dec_sends : forall nodes l b b' i, separate nodes l -> In b l -> In b' l -> bc_kind b = bc_kind b' ->
  maps_to nodes (bc_elev b) i -> maps_to nodes (bc_elev b') i -> b = b'.
Proof.
  intros nodes l b b' i SP Hb Hb' K M M'. unfold separate in SP. induction l as [|x l IH]; [destruct Hb|].
  inversion SP as [|x0 y0 HF HS]; subst. rewrite Forall_forall in HF.
  destruct Hb as [->|Hb]; destruct Hb' as [->|Hb']; auto.
  - exfalso. exact (HF b' Hb' K i M M').
  - exfalso. refine (HF b Hb _ i M' M). congruence.
Qed.

Lemma column_perm : forall cast nodes k l l' a, Permutation l l' -> separate nodes l -> separate nodes l' ->
  col a (apply_bc cast nodes k l (zeros nodes)) = col a (apply_bc cast nodes k l' (zeros nodes)).
Proof.
  intros cast nodes k l l' a P S S'.
  assert (LE : forall x, length (col a (apply_bc cast nodes k x (zeros nodes))) = length nodes)
    by (intros x; rewrite apply_bc_col_length, zeros_col, map_length; reflexivity).
  apply (nth_ext _ _ 0 0); [rewrite !LE; reflexivity|]. intros i Hi. rewrite LE in Hi.
  destruct (apply_bc_column cast nodes k l a i Hi) as [(q & X & V)|(N & V)];
  destruct (apply_bc_column cast nodes k l' a i Hi) as [(q' & X' & V')|(N' & V')]; rewrite (nth_error_nth _ _ 0 V), (nth_error_nth _ _ 0 V'); auto.
  - destruct X as (l1 & b & l2 & E & X & _). destruct X' as (l1' & b' & l2' & E' & X' & _).
    assert (Hb : In b l) by (subst l; apply in_or_app; right; left; auto).
    assert (Hb' : In b' l) by (eapply Permutation_in; [apply Permutation_sym; eauto|subst l'; apply in_or_app; right; left; auto]).
    destruct X as (K & M & G & _). destruct X' as (K' & M' & G' & _).
    assert (b = b') by (apply (maps_dec_sends nodes l b b' i S Hb Hb'); congruence || assumption). subst b'. congruence.
  - destruct X as (l1 & b & l2 & E & X & _). exfalso. apply (N' b q); auto.
    eapply Permutation_in; eauto. subst l. apply in_or_app; right; left; auto.
  - destruct X' as (l1 & b & l2 & E & X' & _). exfalso. apply (N b q'); auto.
    eapply Permutation_in; [apply Permutation_sym; eauto|]. subst l'. apply in_or_app; right; left; auto.
Qed.

Lemma conflict_perm : forall l l' k, Permutation l l' -> conflict l k -> conflict l' k.
Proof.
  intros l l' k P (b & c & a & B & C & R). exists b, c, a.
  split; [eapply Permutation_in; eauto|]. split; [eapply Permutation_in; eauto|]. exact R.
Qed.

Lemma validate_perm : forall l l' k, Permutation l l' -> validate_bc l k = validate_bc l' k.
Proof.
  intros l l' k P. destruct (validate_bc_ok_or l k) as [X|X]; rewrite X; symmetry.
  - apply validate_bc_ok_iff in X. apply validate_bc_ok_iff. intros C. apply X. eapply conflict_perm; [apply Permutation_sym; eauto|exact C].
  - apply validate_bc_iff in X. apply validate_bc_iff. eapply conflict_perm; eauto.
Qed.

Lemma separate_perm : forall nodes l l', Permutation l l' -> separate nodes l -> separate nodes l'.
Proof.
  intros nodes l l' P. unfold separate. induction P; intros S.
  - constructor.
  - inversion S; subst. constructor; auto. eapply Permutation_Forall; eauto.
  - inversion S as [|y0 l0 HF HS]; subst. inversion HS as [|x0 l1 HF' HS']; subst. inversion HF as [|x0 l0 HA HR]; subst.
    constructor; [constructor; auto|constructor; auto].
    intros K i M M'. refine (HA _ i M' M). congruence.
  - auto.
Qed.

Lemma table_perm : forall cast nodes k l l', Permutation l l' -> separate nodes l -> apply_bc cast nodes k l (zeros nodes) = apply_bc cast nodes k l' (zeros nodes).
Proof.
  intros cast nodes k l l' P S. pose proof (separate_perm _ _ _ P S) as S'.
  pose proof (column_perm cast nodes k l l' AX P S S') as X. pose proof (column_perm cast nodes k l l' AY P S S') as Y.
  pose proof (column_perm cast nodes k l l' AZ P S S') as Z.
  destruct (apply_bc cast nodes k l (zeros nodes)), (apply_bc cast nodes k l' (zeros nodes)). cbn in X, Y, Z. subst. reflexivity.
Qed.

Lemma order_irrelevant : forall solve ty circ E nu p m l l', Permutation l l' -> separate (nodes_of m) l ->
  beam_tables solve ty circ E nu p m l = beam_tables solve ty circ E nu p m l'.
Proof.
  intros solve ty circ E nu p m l l' P S. unfold beam_tables, global_forces, global_disp, global_restrained.
  rewrite (validate_perm l l' Force P), (validate_perm l l' Displacement P), (validate_perm l l' Fixation P).
  rewrite (table_perm int_cast _ Force l l' P S), (table_perm (fun q => q) _ Displacement l l' P S), (table_perm (fun _ => 1) _ Fixation l l' P S).
  reflexivity.
Qed.

(** ** circular sections *)
Lemma circular_stiff : forall top bottom d t s, circular top bottom d t = Ok s -> proper_thickness d t < d -> stiff s /\ thickness s == proper_thickness d t.
Proof.
  intros top bottom d t s H L. unfold circular in H.
  destruct (Qltb 0 d) eqn:D; [|discriminate]. apply Qltb_true in D. cbn [negb] in H.
  assert (W : 0 < proper_thickness d t).
  { destruct t as [w|]; cbn [proper_thickness]; [|apply Qlt_shift_div_l; lra].
    destruct (Qltb 0 w) eqn:W; cbn [negb] in H; [apply Qltb_true in W; exact W|discriminate]. }
  set (w := proper_thickness d t) in *.
  destruct (match t with Some w0 => negb (Qltb 0 w0) | None => false end); [discriminate|].
  destruct (Qle_bool top bottom) eqn:TB; [discriminate|]. injection H as <-.
  assert (PI : 0 < mpi) by reflexivity.
  assert (WD : 0 < w * (d - w)) by (apply Qmult_lt_0_compat; lra).
  assert (A : 0 < d^2 - (d - 2 * w)^2) by (setoid_replace (d^2 - (d - 2 * w)^2) with (4 * (w * (d - w))) by ring; lra).
  assert (DD : 0 < d * d) by (apply Qmult_lt_0_compat; lra).
  assert (SQ : 0 <= (d - 2 * w) * (d - 2 * w)) by apply square_nonneg.
  assert (J : 0 < d^4 - (d - 2 * w)^4).
  { setoid_replace (d^4 - (d - 2 * w)^4) with ((d^2 - (d - 2 * w)^2) * (d * d + (d - 2 * w) * (d - 2 * w))) by ring.
    apply Qmult_lt_0_compat; lra. }
  split.
  - unfold stiff. cbn [s_bottom s_top s_inertia s_area s_width]. split; [|split; [|split]].
    + apply Qleb_false in TB. exact TB.
    + unfold circ_inertia. apply Qlt_shift_div_l; [reflexivity|]. rewrite Qmult_0_l. apply Qmult_lt_0_compat; assumption.
    + unfold circ_area. apply Qlt_shift_div_l; [reflexivity|]. rewrite Qmult_0_l. apply Qmult_lt_0_compat; assumption.
    + exact D.
  - unfold thickness. cbn [s_width s_inner]. unfold circ_inner. field. discriminate.
Qed.

(** ** the pile-soil model of a meshed pile *)
Lemma soil_model_mechanics : forall l s x c p t b m ty circ E nu ks py tz mt mtc hb mb qz, meshed l s x c p t b m -> 0 < E -> -(3#4) <= nu ->
  (ty = Timoshenko -> circ = true) -> elem_matrices ty circ E nu p (elements_of m) = Ok (Some ks) ->
  let M := soil_model p (elements_of m) ks py tz mt mtc hb mb qz in let z := fun a => nth a (nodes_of m) 0 in
  forall e, (e < w_n M)%nat -> (w_L M e = z e - z (S e) /\ 0 < w_L M e) /\ elem_deforms (w_L M e) (w_mech M e).
Proof.
  intros l s x c p t b m ty circ E nu ks py tz mt mtc hb mb qz MS PE PN HT K M z e He.
  assert (HE : forall e x, nth_error (elements_of m) e = Some x -> snd x < fst x /\
    exists s, 0 < s_inertia s /\ 0 < s_area s /\ 0 < s_width s /\ forall f, elem_value f p (elements_of m) e = Some (f s)).
  { intros e0 x0 H0. destruct (meshed_sections _ _ _ _ _ _ _ _ MS e0 x0 H0) as [A (q & _ & _ & B)]. split; [exact A|]. exists q. exact B. }
  destruct (elem_z p m HE e He) as (X & LE & LP). destruct (matrices_ok ty circ E nu p m HE HT ks K) as (J & A & d & wt & H).
  destruct (H e He) as (H1 & H2 & H3 & H4 & H5). cbn [M soil_model w_L w_mech]. rewrite LE. split; [split; [reflexivity|exact LP]|].
  exact (proj1 (mech_element_ok _ _ _ _ _ _ _ _ _ _ PE PN H1 H2 H3 LP H5)).
Qed.

(** ** setter histories *)
Lemma history_separate : forall nodes l, one_per_place l -> (forall b, In b l -> at_node nodes b) -> separate nodes l.
Proof.
  intros nodes l O A. unfold separate. induction l as [|b l IH]; constructor.
  - apply Forall_forall. intros b' Hb' K i M M'. destruct (In_nth_error _ _ Hb') as [j Hj].
    assert (X : 0%nat = S j); [|discriminate]. apply (O 0%nat (S j) b b'); auto.
    destruct (A b (or_introl eq_refl)) as (i1 & z1 & M1 & N1 & E1). destruct (A b' (or_intror Hb')) as (i2 & z2 & M2 & N2 & E2).
    assert (i1 = i) by (eapply maps_to_unique; eauto). assert (i2 = i) by (eapply maps_to_unique; eauto). subst i1 i2.
    assert (z1 = z2) by congruence. subst z2. rewrite <- E1, <- E2. reflexivity.
  - apply IH; [|intros; apply A; right; auto]. intros i j x y Hx Hy K E. 
    assert (X : S i = S j) by (apply (O (S i) (S j) x y); auto). congruence.
Qed.

Lemma accept_ok : forall len c b, accept_model len c b None = Ok tt <-> 0.01 <= c /\ 5 * c <= len.
Proof.
  intros len c b. unfold accept_model. destruct (Qltb c (1#100)) eqn:A.
  - apply Qltb_true in A. split; [discriminate|]. intros [H _]. lra.
  - apply Qltb_false in A. destruct (Qle_bool (5 * c) len) eqn:B; cbn [negb].
    + apply Qleb_true in B. split; auto.
    + apply Qleb_false in B. split; [discriminate|]. intros [_ H]. lra.
Qed.

Lemma analyse_unfold : forall solve ty circ E nu sections x c p t b m calls, meshed sections None x c p t b m -> 5 * c <= t - b ->
  analyse solve ty circ E nu sections x c calls = beam_tables solve ty circ E nu p m (run calls []).
Proof.
  intros solve ty circ E nu sections x c p t b m calls [ST MP TP BT C MM GR SL XX] L. unfold analyse.
  rewrite MP. cbn [bind]. unfold pile_length. rewrite TP. cbn [bind]. rewrite BT. cbn [bind].
  rewrite (proj2 (accept_ok (t - b) c b)) by (split; lra). cbn [bind]. rewrite MM. reflexivity.
Qed.

(** ** resultants of loads and reactions, any vector of reactions *)
Lemma resultants : forall m l tf R, m <> [] -> global_forces (nodes_of m) l = Ok tf -> separate (nodes_of m) l ->
  (forall b, In b l -> is_load b = true -> at_node (nodes_of m) b /\ whole_load b) ->
  let n := length (elements_of m) in let G := fun i => dof_vector tf i + R i in let rows := disp_rows (nodes_of m) R in
  sum (S n) (fun a => G (3 * a)%nat) == total_load AZ l + rows_axial rows /\
  sum (S n) (fun a => G (3 * a + 1)%nat) == total_load AY l + rows_lateral rows /\
  forall z0, sum (S n) (fun a => G (3 * a + 2)%nat + (z0 - nth a (nodes_of m) 0) * G (3 * a + 1)%nat) == total_load_moment z0 l + rows_moment z0 rows.
Proof.
  intros m l tf R HM HF S W n G rows. set (nodes := nodes_of m) in *.
  assert (TF : tf = apply_bc int_cast nodes Force l (zeros nodes)).
  { unfold global_forces in HF. destruct (validate_bc l Force); [|discriminate]. cbn [bind] in HF. injection HF as <-. reflexivity. }
  assert (NE : length nodes = Datatypes.S n) by (exact (nodes_elems_count m HM)).
  assert (LC : forall a, length (col a tf) = length nodes) by (intros a; rewrite TF, apply_bc_col_length, zeros_col, map_length; reflexivity).
  assert (TW : forall a w g, (forall i z, nth_error nodes i = Some z -> w i == g z) -> (forall x y, x == y -> g x == g y) ->
     sum (length nodes) (fun i => w i * nth i (col a tf) 0) == Qsum (map (fun b => g (bc_elev b) * component_of a b) (loads l))).
  { intros a w g HW HG. rewrite TF, <- (total_of_loads nodes a w g l S W HW HG). unfold wsum.
    rewrite <- TF, LC. reflexivity. }
  assert (T1 : forall a, sum (length nodes) (fun i => nth i (col a tf) 0) == total_load a l).
  { intros a. specialize (TW a (fun _ => 1) (fun _ => 1)). unfold total_load.
    transitivity (sum (length nodes) (fun i => 1 * nth i (col a tf) 0)); [apply sum_ext; intros; ring|].
    rewrite TW by (intros; reflexivity). apply Qsum_ext. intros; ring. }
  rewrite <- NE. unfold rows, rows_axial, rows_lateral, rows_moment, G.
  split; [|split].
  - rewrite disp_rows_sum. cbn [fst snd]. rewrite <- T1, <- sum_plus. apply sum_ext. intros i Hi. rewrite dof0. reflexivity.
  - rewrite disp_rows_sum. cbn [fst snd]. rewrite <- T1, <- sum_plus. apply sum_ext. intros i Hi. rewrite dof1. reflexivity.
  - intros z0. rewrite disp_rows_sum. cbn [fst snd].
    assert (TM : total_load_moment z0 l == sum (length nodes) (fun i => nth i (col AX tf) 0 + (z0 - nth i nodes 0) * nth i (col AY tf) 0)).
    { unfold total_load_moment. rewrite sum_plus, T1.
      rewrite (TW AY (fun i => z0 - nth i nodes 0) (fun x => z0 - x)).
      - unfold total_load. rewrite <- Qsum_plus. reflexivity.
      - intros i z Hz. rewrite (nth_error_nth _ _ 0 Hz). reflexivity.
      - intros x y Hxy. rewrite Hxy. reflexivity. }
    rewrite TM, <- sum_plus. apply sum_ext. intros i Hi. rewrite dof1, dof2. ring.
Qed.
