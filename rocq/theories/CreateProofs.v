From Coq Require Import List Bool Arith ZArith QArith Qabs Permutation Lia Lqa.
From Verif Require Import Base PileModel PileSpec MeshModel MeshSpec StressModel StressSpec LinAlg SolveModel SolveSpec CreateModel.
Import ListNotations.
Local Open Scope Q_scope.

(** ** Layer parameters *)
Definition between (a b x : Q) : Prop := (a <= x /\ x <= b) \/ (b <= x /\ x <= a).

Lemma value_linear : forall p t b d h x, 0 < h -> (p = ListOf [t; b] \/ (p = Number t /\ b = t) \/ (p = ListOf [t] /\ b = t)) ->
  exists v, value_at p d h x = Ok v /\ v * h == t * (h - d) + b * d.
Proof.
  intros p t b d h x H HP. unfold value_at.
  assert (E : Qeq_bool h 0 = false). { destruct (Qeq_bool h 0) eqn:E; auto. apply Qeq_bool_iff in E. lra. }
  destruct HP as [->|[[-> ->]|[-> ->]]]; cbn [top_bottom bind]; rewrite E; (eexists; split; [reflexivity|]); field; lra.
Qed.

Lemma value_within : forall t b d h x, 0 < h -> 0 <= d -> d <= h ->
  exists v, value_at (ListOf [t; b]) d h x = Ok v /\ between t b v /\ (d == 0 -> v == t) /\ (d == h -> v == b).
Proof.
  intros t b d h x H H0 H1. destruct (value_linear (ListOf [t; b]) t b d h x H (or_introl eq_refl)) as (v & E & L).
  exists v. split; [exact E|].
  assert (C : forall y z, y * h <= z * h -> y <= z) by (intros y z; apply Qmult_lt_0_le_reg_r; auto).
  split; [|split].
  - destruct (Qlt_le_dec t b) as [T|T]; [left|right]; split; apply C; rewrite L.
    + assert (0 <= (b - t) * d) by (apply Qmult_le_0_compat; lra). lra.
    + assert (0 <= (b - t) * (h - d)) by (apply Qmult_le_0_compat; lra). lra.
    + assert (0 <= (t - b) * (h - d)) by (apply Qmult_le_0_compat; lra). lra.
    + assert (0 <= (t - b) * d) by (apply Qmult_le_0_compat; lra). lra.
  - intros D. assert (v * h == t * h) by (rewrite L, D; ring). apply Qle_antisym; apply C; lra.
  - intros D. assert (v * h == b * h) by (rewrite L, D; ring). apply Qle_antisym; apply C; lra.
Qed.

Lemma value_constant : forall p t d h x, 0 < h -> (p = Number t \/ p = ListOf [t]) -> exists v, value_at p d h x = Ok v /\ v == t.
Proof.
  intros p t d h x H HP. destruct (value_linear p t t d h x H) as (v & E & L); [destruct HP; auto|].
  exists v. split; [exact E|]. assert (X : v * h == t * h) by (rewrite L; ring). apply Qle_antisym; apply (Qmult_lt_0_le_reg_r _ _ h H); lra.
Qed.

Lemma value_error : forall p d h x, 0 < h -> (value_at p d h x = Err TypeError <-> p = Unsupported \/ exists l, p = ListOf l /\ length l <> 1%nat /\ length l <> 2%nat).
Proof.
  intros p d h x H. assert (E : Qeq_bool h 0 = false). { destruct (Qeq_bool h 0) eqn:E; auto. apply Qeq_bool_iff in E. lra. }
  destruct p as [y|l|f|]; cbn [value_at top_bottom bind]; rewrite ?E.
  - split; [discriminate|]. intros [X|(l & X & _)]; discriminate.
  - destruct l as [|a [|b [|c l]]]; cbn [bind]; rewrite ?E; split; intros X; try discriminate; try reflexivity.
    + right. exists []. cbn. repeat split; lia.
    + destruct X as [X|(l & X & A & B)]; [discriminate|]. injection X as <-. cbn in *. lia.
    + destruct X as [X|(l & X & A & B)]; [discriminate|]. injection X as <-. cbn in *. lia.
    + right. exists (a :: b :: c :: l). cbn. repeat split; lia.
  - split; [discriminate|]. intros [X|(l & X & _)]; discriminate.
  - split; auto.
Qed.

(** ** Acceptance *)
Lemma accept_iff : forall len c pb sb, accept_model len c pb sb = Ok tt <-> 1#100 <= c /\ 5 * c <= len /\ (forall b, sb = Some b -> b <= pb).
Proof.
  intros len c pb sb. unfold accept_model. destruct (Qltb c (1#100)) eqn:E1; [apply Qltb_true in E1|apply Qltb_false in E1].
  { split; [discriminate|]. intros (A & _). lra. }
  destruct (Qle_bool (5 * c) len) eqn:E2; [apply Qleb_true in E2|apply Qleb_false in E2]; cbn [negb].
  - destruct sb as [b|].
    + destruct (Qltb pb b) eqn:E3; [apply Qltb_true in E3|apply Qltb_false in E3].
      * split; [discriminate|]. intros (_ & _ & A). specialize (A b eq_refl). lra.
      * split; auto. intros _. split; [auto|]. split; [auto|]. intros b' X. injection X as <-. lra.
    + split; auto. intros _. split; [auto|]. split; [auto|]. discriminate.
  - split; [discriminate|]. intros (_ & A & _). lra.
Qed.

Lemma accept_error : forall len c pb sb e, accept_model len c pb sb = Err e -> e = ValueError.
Proof.
  intros len c pb sb e. unfold accept_model. destruct (Qltb c _); [congruence|]. destruct (negb _); [congruence|].
  destruct sb; [|discriminate]. destruct (Qltb pb q); congruence.
Qed.

(** ** check_boundary_conditions *)
Lemma nonzero_pos : forall l, (0 < nonzero l)%nat <-> exists x, In x l /\ ~ x == 0.
Proof.
  intros l. unfold nonzero. split.
  - intros H. destruct (filter _ l) as [|x t] eqn:E; [cbn in H; lia|]. exists x.
    assert (I : In x (filter (fun x => negb (Qeq_bool x 0)) l)) by (rewrite E; left; auto). apply filter_In in I. destruct I as [I J]. split; auto.
    intros X. apply Qeq_bool_iff in X. rewrite X in J. discriminate.
  - intros (x & I & N). assert (J : In x (filter (fun x => negb (Qeq_bool x 0)) l)).
    { apply filter_In. split; auto. destruct (Qeq_bool x 0) eqn:E; auto. apply Qeq_bool_iff in E. contradiction. }
    destruct (filter _ l); [contradiction|cbn; lia].
Qed.

Definition loaded (l : list Q) : Prop := exists x, In x l /\ ~ x == 0.

Lemma check_bc_iff : forall rx ry rz fx fy fz soil, check_bc rx ry rz fx fy fz soil = Ok tt <->
  soil = false /\ (loaded fx \/ loaded fy \/ loaded fz) /\ (loaded fz -> loaded rz) /\ (loaded fx \/ loaded fy -> (2 <= nonzero ry + nonzero rx)%nat).
Proof.
  intros rx ry rz fx fy fz soil. unfold loaded. rewrite <- !nonzero_pos. unfold check_bc.
  generalize (nonzero rx) (nonzero ry) (nonzero rz) (nonzero fx) (nonzero fy) (nonzero fz). intros a b c d e f.
  destruct soil; cbn [negb]; rewrite ?andb_false_r, ?andb_true_r.
  - split; [destruct (Nat.eqb (d + e + f) 0); discriminate|]. intros [X _]. discriminate.
  - repeat match goal with |- context [Nat.eqb ?x ?y] => destruct (Nat.eqb_spec x y) | |- context [(?x <? ?y)%nat] => destruct (Nat.ltb_spec x y) | |- context [(?x <=? ?y)%nat] => destruct (Nat.leb_spec x y) end;
      cbn [andb]; (split; intros X; [try discriminate; repeat split; try reflexivity; intros; lia|try reflexivity; exfalso; destruct X as (_ & X1 & X2 & X3); lia]).
Qed.

(** *** Supports of a beam as columns of the table *)
Definition mark (b : bool) : Q := if b then 1 else 0.
Definition column (n : nat) (r : nat -> bool) (k : nat) : list Q := map (fun a => mark (r (3 * a + k)%nat)) (seq 0 (S n)).

Lemma marks_one : forall f (l : list nat) a, In a l -> f a = true -> (1 <= nonzero (map (fun a => mark (f a)) l))%nat.
Proof.
  intros f l a I H. apply nonzero_pos. exists (mark (f a)). split; [apply in_map_iff; exists a; auto|]. rewrite H. discriminate.
Qed.

Lemma marks_two : forall f (l : list nat) a b, a <> b -> In a l -> In b l -> f a = true -> f b = true -> (2 <= nonzero (map (fun a => mark (f a)) l))%nat.
Proof.
  intros f l a b N. unfold nonzero. induction l as [|h t IH]; intros Ia Ib Ha Hb; [contradiction|]. cbn [map filter].
  destruct Ia as [->|Ia], Ib as [->|Ib]; try congruence.
  - rewrite Ha. cbn [mark Qeq_bool]. change (Qeq_bool 1 0) with false. cbn [negb length]. pose proof (marks_one f t b Ib Hb) as M. unfold nonzero in M. lia.
  - rewrite Hb. cbn [mark Qeq_bool]. change (Qeq_bool 1 0) with false. cbn [negb length]. pose proof (marks_one f t a Ia Ha) as M. unfold nonzero in M. lia.
  - specialize (IH Ia Ib Ha Hb). destruct (negb (Qeq_bool (mark (f h)) 0)); cbn [length]; lia.
Qed.

Lemma held_counts : forall n r, held n r -> (1 <= nonzero (column n r 0) /\ 2 <= nonzero (column n r 1) + nonzero (column n r 2))%nat.
Proof.
  intros n r ((a & Ha & Ra) & (b & Hb & Rb & C)). unfold column. split.
  - apply (marks_one (fun a => r (3 * a + 0)%nat) _ a); [apply in_seq; lia|]. rewrite Nat.add_0_r. exact Ra.
  - destruct C as [(c & Hc & Rc)|(c & Hc & N & Rc)].
    + pose proof (marks_one (fun a => r (3 * a + 1)%nat) (seq 0 (S n)) b ltac:(apply in_seq; lia) Rb).
      pose proof (marks_one (fun a => r (3 * a + 2)%nat) (seq 0 (S n)) c ltac:(apply in_seq; lia) Rc). lia.
    + pose proof (marks_two (fun a => r (3 * a + 1)%nat) (seq 0 (S n)) b c ltac:(congruence) ltac:(apply in_seq; lia) ltac:(apply in_seq; lia) Rb Rc). lia.
Qed.

(** ** Spring creation *)
Section Create.
Context {V : Type}.
Notation slayer := (@slayer V).
Variables (st : setting) (layers : list slayer).

(** Layers that do not overlap *)
Definition apart (ls : list slayer) : Prop := forall a b, In a ls -> In b ls -> a = b \/ l_top (s_layer a) <= l_bottom (s_layer b) \/ l_top (s_layer b) <= l_bottom (s_layer a).

Definition elem (i : nat) : Q * Q := nth i (elems st) (0, 0).
Definition holds (sl : slayer) (i : nat) : Prop := (i < length (elems st))%nat /\ snd (elem i) < fst (elem i) /\
  l_bottom (s_layer sl) <= snd (elem i) /\ fst (elem i) <= l_top (s_layer sl).

Lemma in_work : forall sl i, In (sl, i) (work st layers) <-> In sl layers /\ (i < length (elems st))%nat /\
  l_bottom (s_layer sl) <= snd (elem i) /\ fst (elem i) <= l_top (s_layer sl).
Proof.
  intros sl i. unfold work. rewrite in_flat_map. split.
  - intros (s' & I & J). apply in_map_iff in J. destruct J as (k & E & K). injection E as -> ->. apply filter_In in K. destruct K as [K1 K2].
    apply in_seq in K1. unfold inside in K2. apply andb_prop in K2. destruct K2 as [A B]. apply Qleb_true in A. apply Qleb_true in B.
    repeat split; auto; lia.
  - intros (I & L & A & B). exists sl. split; auto. apply in_map_iff. exists i. split; auto. apply filter_In. split; [apply in_seq; lia|].
    unfold inside. apply andb_true_intro. split; apply Qleb_true; auto.
Qed.

Lemma owner_unique : forall sl sl' i, apart layers -> In sl layers -> holds sl i -> In (sl', i) (work st layers) -> sl' = sl.
Proof.
  intros sl sl' i AP I (L & P & A & B) W. apply in_work in W. destruct W as (I' & _ & A' & B').
  destruct (AP sl' sl I' I) as [|[X|X]]; auto; exfalso; lra.
Qed.

(** what one visit writes *)
Definition writes_py (sl : slayer) (i j : nat) : option V :=
  match s_lat sl with Some la => if has_py la && distributed_lateral st then Some (f_py la (shaft_args st (s_layer sl) i j)) else None | None => None end.
Definition writes_mt (sl : slayer) (i j : nat) : option V :=
  match s_lat sl with Some la => if has_mt la && distributed_moment st then Some (f_mt la (shaft_args st (s_layer sl) i j)) else None | None => None end.
Definition writes_tz (sl : slayer) (i j : nat) : option V :=
  match s_ax sl with Some ax => if distributed_axial st then Some (f_tz ax (shaft_args st (s_layer sl) i j)) else None | None => None end.
Definition writes_hb (sl : slayer) (i : nat) : option V :=
  match s_lat sl with Some la => if tip_in st (s_layer sl) && (has_hb la && base_shear st) then Some (f_hb la (base_args st (s_layer sl) i)) else None | None => None end.
Definition writes_mb (sl : slayer) (i : nat) : option V :=
  match s_lat sl with Some la => if tip_in st (s_layer sl) && (has_mb la && base_moment st) then Some (f_mb la (base_args st (s_layer sl) i)) else None | None => None end.
Definition writes_qz (sl : slayer) (i : nat) : option V :=
  match s_ax sl with Some ax => if tip_in st (s_layer sl) && base_axial st then Some (f_qz ax (base_args st (s_layer sl) i)) else None | None => None end.

Definition or_old (a b : option V) : option V := match a with Some _ => a | None => b end.

Lemma visit_spec : forall sl i m e j, (j < 2)%nat ->
  m_py (visit st (sl, i) m) e j = (if Nat.eqb e i then or_old (writes_py sl i j) (m_py m e j) else m_py m e j) /\
  m_mt (visit st (sl, i) m) e j = (if Nat.eqb e i then or_old (writes_mt sl i j) (m_mt m e j) else m_mt m e j) /\
  m_tz (visit st (sl, i) m) e j = (if Nat.eqb e i then or_old (writes_tz sl i j) (m_tz m e j) else m_tz m e j) /\
  m_hb (visit st (sl, i) m) = or_old (writes_hb sl i) (m_hb m) /\
  m_mb (visit st (sl, i) m) = or_old (writes_mb sl i) (m_mb m) /\
  m_qz (visit st (sl, i) m) = or_old (writes_qz sl i) (m_qz m).
Proof.
  intros sl i m e j Hj. unfold visit, writes_py, writes_mt, writes_tz, writes_hb, writes_mb, writes_qz, or_old, put.
  assert (J : (j <? 2)%nat = true) by (apply Nat.ltb_lt; auto).
  destruct (s_lat sl) as [la|], (s_ax sl) as [ax|]; cbn [m_py m_mt m_tz m_hb m_mb m_qz];
    repeat match goal with |- context [if (?a && ?b)%bool then put _ _ _ else _] => destruct (a && b)%bool end; repeat split;
    repeat match goal with
      | |- context [if (has_py ?a && ?b)%bool then _ else _] => destruct (has_py a && b)%bool
      | |- context [if (has_mt ?a && ?b)%bool then _ else _] => destruct (has_mt a && b)%bool
      | |- context [if (tip_in ?a ?l && ?b)%bool then _ else _] => destruct (tip_in a l && b)%bool
      | |- context [if distributed_axial st then _ else _] => destruct (distributed_axial st) end;
    rewrite ?J, ?andb_true_r; destruct (Nat.eqb e i); reflexivity.
Qed.

(** last writer of one cell *)
Section Cell.
Variables (cell : @made V -> option V) (w : slayer * nat -> option V).
Hypothesis VS : forall li m, cell (visit st li m) = or_old (w li) (cell m).

Lemma cell_none : forall l m, (forall li, In li l -> w li = None) -> cell (fold_left (fun m li => visit st li m) l m) = cell m.
Proof.
  induction l as [|li t IH]; intros m H; cbn [fold_left]; [reflexivity|].
  rewrite IH by (intros; apply H; right; auto). rewrite VS, (H li) by (left; auto). reflexivity.
Qed.

Lemma cell_last : forall l1 li l2 m v, w li = Some v -> (forall li', In li' l2 -> w li' = None \/ w li' = Some v) ->
  cell (fold_left (fun m li => visit st li m) (l1 ++ li :: l2) m) = Some v.
Proof.
  intros l1 li l2 m v E H. rewrite fold_left_app. cbn [fold_left]. generalize (fold_left (fun m li => visit st li m) l1 m). intros m1.
  assert (C : cell (visit st li m1) = Some v) by (rewrite VS, E; reflexivity).
  revert H C. generalize (visit st li m1). clear - VS. induction l2 as [|a t IH]; intros m2 H C; cbn [fold_left]; [exact C|].
  apply IH; [intros; apply H; right; auto|]. rewrite VS. destruct (H a (or_introl eq_refl)) as [->| ->]; [exact C|reflexivity].
Qed.
End Cell.

Lemma owned : forall sl i, apart layers -> In sl layers -> holds sl i ->
  forall (cell : @made V -> option V) (f : slayer -> option V),
  (forall li m, cell (visit st li m) = or_old (if Nat.eqb i (snd li) then f (fst li) else None) (cell m)) -> cell no_springs = None ->
  cell (create_springs st layers) = f sl.
Proof.
  intros sl i AP I H cell f VS C0. unfold create_springs.
  assert (W : In (sl, i) (work st layers)) by (apply in_work; destruct H as (A & _ & B & C); auto).
  destruct (f sl) as [v|] eqn:E.
  - apply in_split in W. destruct W as (l1 & l2 & EW). rewrite EW.
    apply (cell_last cell _ VS); cbn [fst snd]; [rewrite Nat.eqb_refl; exact E|].
    intros [sl' i'] J. cbn [fst snd]. destruct (Nat.eqb_spec i i') as [<-|]; [|auto]. right.
    replace sl' with sl; [exact E|]. symmetry. apply (owner_unique sl sl' i); auto. rewrite EW. apply in_or_app. right. right. auto.
  - rewrite (cell_none cell _ VS); [exact C0|]. intros [sl' i'] J. cbn [fst snd]. destruct (Nat.eqb_spec i i') as [<-|]; [|reflexivity].
    replace sl' with sl; [exact E|]. symmetry. apply (owner_unique sl sl' i); auto.
Qed.

Lemma shaft_springs : forall sl i j, apart layers -> In sl layers -> holds sl i -> (j < 2)%nat ->
  m_py (create_springs st layers) i j = writes_py sl i j /\ m_mt (create_springs st layers) i j = writes_mt sl i j /\ m_tz (create_springs st layers) i j = writes_tz sl i j.
Proof.
  intros sl i j AP I H Hj. split; [|split].
  - apply (owned sl i AP I H (fun m => m_py m i j) (fun s => writes_py s i j)); [|reflexivity]. intros [sl' i'] m. destruct (visit_spec sl' i' m i j Hj) as (A & _).
    rewrite A. cbn [fst snd]. destruct (Nat.eqb_spec i i') as [<-|]; reflexivity.
  - apply (owned sl i AP I H (fun m => m_mt m i j) (fun s => writes_mt s i j)); [|reflexivity]. intros [sl' i'] m. destruct (visit_spec sl' i' m i j Hj) as (_ & A & _).
    rewrite A. cbn [fst snd]. destruct (Nat.eqb_spec i i') as [<-|]; reflexivity.
  - apply (owned sl i AP I H (fun m => m_tz m i j) (fun s => writes_tz s i j)); [|reflexivity]. intros [sl' i'] m. destruct (visit_spec sl' i' m i j Hj) as (_ & _ & A & _).
    rewrite A. cbn [fst snd]. destruct (Nat.eqb_spec i i') as [<-|]; reflexivity.
Qed.

(** An element outside every layer keeps the zeros. *)
Lemma no_layer : forall i j, (j < 2)%nat -> (forall sl, In sl layers -> ~ (l_bottom (s_layer sl) <= snd (elem i) /\ fst (elem i) <= l_top (s_layer sl))) ->
  m_py (create_springs st layers) i j = None /\ m_mt (create_springs st layers) i j = None /\ m_tz (create_springs st layers) i j = None.
Proof.
  intros i j Hj H. unfold create_springs.
  assert (N : forall li, In li (work st layers) -> Nat.eqb i (snd li) = false).
  { intros [sl i'] W. cbn [snd]. apply in_work in W. destruct W as (I & _ & A & B). apply Nat.eqb_neq. intros <-. apply (H sl I). auto. }
  split; [|split].
  - rewrite (cell_none (fun m => m_py m i j) (fun li => if Nat.eqb i (snd li) then writes_py (fst li) (snd li) j else None)); [reflexivity| |].
    + intros [sl' i'] m. destruct (visit_spec sl' i' m i j Hj) as (A & _). rewrite A. cbn [fst snd]. destruct (Nat.eqb i i'); reflexivity.
    + intros li W. rewrite (N li W). reflexivity.
  - rewrite (cell_none (fun m => m_mt m i j) (fun li => if Nat.eqb i (snd li) then writes_mt (fst li) (snd li) j else None)); [reflexivity| |].
    + intros [sl' i'] m. destruct (visit_spec sl' i' m i j Hj) as (_ & A & _). rewrite A. cbn [fst snd]. destruct (Nat.eqb i i'); reflexivity.
    + intros li W. rewrite (N li W). reflexivity.
  - rewrite (cell_none (fun m => m_tz m i j) (fun li => if Nat.eqb i (snd li) then writes_tz (fst li) (snd li) j else None)); [reflexivity| |].
    + intros [sl' i'] m. destruct (visit_spec sl' i' m i j Hj) as (_ & _ & A & _). rewrite A. cbn [fst snd]. destruct (Nat.eqb i i'); reflexivity.
    + intros li W. rewrite (N li W). reflexivity.
Qed.

(** *** Base springs: the layer of the lowest element *)
Variable n : nat.
Hypothesis LEN : length (elems st) = S n.
Hypothesis TIP : snd (elem n) == tip st.
(** elements are of positive length and above the tip *)
Hypothesis ABOVE : forall i, (i <= n)%nat -> snd (elem i) < fst (elem i) /\ tip st <= snd (elem i).

Lemma tip_layer_unique : forall sl sl' i, apart layers -> In sl layers -> holds sl n -> In (sl', i) (work st layers) -> tip_in st (s_layer sl') = true -> sl' = sl.
Proof.
  intros sl sl' i AP I (L & P & A & B) W T. apply in_work in W. destruct W as (I' & L' & A' & B').
  unfold tip_in in T. apply andb_prop in T. destruct T as [T1 T2]. apply Qleb_true in T1. apply Qleb_true in T2.
  destruct (ABOVE i ltac:(lia)) as [P' T']. destruct (AP sl' sl I' I) as [|[X|X]]; auto; exfalso; lra.
Qed.

Lemma base_cell : forall sl, NoDup layers -> apart layers -> In sl layers -> holds sl n ->
  forall (cell : @made V -> option V) (f : slayer -> nat -> option V),
  (forall li m, cell (visit st li m) = or_old (f (fst li) (snd li)) (cell m)) -> cell no_springs = None ->
  (forall sl i v, f sl i = Some v -> tip_in st (s_layer sl) = true) -> (forall sl i i', f sl i = None -> f sl i' = None) ->
  cell (create_springs st layers) = f sl n.
Proof.
  intros sl ND AP I H cell f VS C0 FT FN. unfold create_springs.
  destruct (f sl n) as [v|] eqn:E.
  - assert (AU : forall a i, In (a, i) (work st layers) -> f a i = None \/ a = sl).
    { intros a i W. destruct (f a i) eqn:E'; auto. right. apply (tip_layer_unique sl a i); auto. apply (FT a i v0 E'). }
    assert (W : exists l1 l2, work st layers = l1 ++ (sl, n) :: l2 /\ forall li, In li l2 -> f (fst li) (snd li) = None).
    { destruct (in_split sl layers I) as (la & lb & EL).
      assert (NB : ~ In sl lb). { rewrite EL in ND. apply NoDup_remove_2 in ND. intros X. apply ND, in_or_app. auto. }
      assert (WB : forall li, In li (work st lb) -> f (fst li) (snd li) = None).
      { intros [a i] W. cbn [fst snd]. assert (W' : In a lb) by (unfold work in W; apply in_flat_map in W; destruct W as (x & X & Y); apply in_map_iff in Y; destruct Y as (k & Y & _); congruence).
        destruct (AU a i) as [|X]; auto; [|subst; contradiction]. rewrite EL. unfold work. rewrite flat_map_app. apply in_or_app. right. cbn [flat_map]. apply in_or_app. right. exact W. }
      pose (inl := fun i => inside (l_top (s_layer sl)) (l_bottom (s_layer sl)) (nth i (elems st) (0, 0))).
      exists (work st la ++ map (fun i => (sl, i)) (filter inl (seq 0 n))), (work st lb). split; [|exact WB].
      rewrite EL. unfold work at 1. rewrite flat_map_app. cbn [flat_map]. fold inl. rewrite LEN, seq_S, filter_app, map_app. cbn [Nat.add filter].
      assert (IN : inl n = true). { unfold inl, inside. destruct H as (_ & _ & A & B). apply andb_true_intro. split; apply Qleb_true; auto. }
      rewrite IN. cbn [map]. unfold work. rewrite LEN, (seq_S n 0), <- !app_assoc. reflexivity. }
    destruct W as (l1 & l2 & EW & WN). rewrite EW. apply (cell_last cell (fun li => f (fst li) (snd li)) VS); auto.
  - rewrite (cell_none cell (fun li => f (fst li) (snd li)) VS); [exact C0|]. intros [a i] W. cbn [fst snd]. destruct (f a i) eqn:E'; auto. exfalso.
    assert (a = sl) by (apply (tip_layer_unique sl a i); auto; apply (FT a i v E')). subst a. rewrite (FN sl n i E) in E'. discriminate.
Qed.

Lemma base_springs : forall sl, NoDup layers -> apart layers -> In sl layers -> holds sl n ->
  m_hb (create_springs st layers) = writes_hb sl n /\ m_mb (create_springs st layers) = writes_mb sl n /\ m_qz (create_springs st layers) = writes_qz sl n.
Proof.
  intros sl ND AP I H. split; [|split].
  - apply (base_cell sl ND AP I H m_hb writes_hb); [|reflexivity| |].
    + intros [a i] m. destruct (visit_spec a i m 0 0 ltac:(lia)) as (_ & _ & _ & A & _). exact A.
    + intros a i v. unfold writes_hb. destruct (s_lat a); [|discriminate]. destruct (tip_in st (s_layer a)); [auto|discriminate].
    + intros a i i'. unfold writes_hb. destruct (s_lat a); [|auto]. destruct (tip_in _ _ && _); [discriminate|auto].
  - apply (base_cell sl ND AP I H m_mb writes_mb); [|reflexivity| |].
    + intros [a i] m. destruct (visit_spec a i m 0 0 ltac:(lia)) as (_ & _ & _ & _ & A & _). exact A.
    + intros a i v. unfold writes_mb. destruct (s_lat a); [|discriminate]. destruct (tip_in st (s_layer a)); [auto|discriminate].
    + intros a i i'. unfold writes_mb. destruct (s_lat a); [|auto]. destruct (tip_in _ _ && _); [discriminate|auto].
  - apply (base_cell sl ND AP I H m_qz writes_qz); [|reflexivity| |].
    + intros [a i] m. destruct (visit_spec a i m 0 0 ltac:(lia)) as (_ & _ & _ & _ & _ & A). exact A.
    + intros a i v. unfold writes_qz. destruct (s_ax a); [|discriminate]. destruct (tip_in st (s_layer a)); [auto|discriminate].
    + intros a i i'. unfold writes_qz. destruct (s_ax a); [|auto]. destruct (tip_in _ _ && _); [discriminate|auto].
Qed.

Lemma holds_tip : forall sl, holds sl n -> tip_in st (s_layer sl) = true.
Proof. intros sl (L & P & A & B). unfold tip_in. apply andb_true_intro. split; apply Qleb_true; lra. Qed.
End Create.

(** Arguments a spring function must get at elevation [z] of an element in layer [l] *)
Definition shaft_arguments (st : setting) (l : layer) (i j : nat) (a : args) : Prop :=
  let e := nth i (elems st) (0, 0) in
  let z := if Nat.eqb j 0 then fst e else snd e in
  a_sig a = (if Nat.eqb j 0 then nth i (sig_top st) None else nth i (sig_bottom st) None) /\
  a_X a == ground st - z /\ a_depth a == l_top l - z /\ a_height a == l_top l - l_bottom l /\
  0 <= a_depth a /\ a_depth a <= a_height a /\ 0 < a_height a /\
  a_D a = width st i /\ a_perim a = outer st i /\ a_L a == ground st - tip st /\ (a_wet a = true <-> z <= water st).

Lemma shaft_args_ok : forall st l i j, (j < 2)%nat -> let e := nth i (elems st) (0, 0) in
  l_bottom l <= snd e -> snd e < fst e -> fst e <= l_top l -> fst e <= ground st -> shaft_arguments st l i j (shaft_args st l i j).
Proof.
  intros st l i j Hj e A B C D. unfold shaft_arguments, shaft_args, pick. cbn [a_sig a_X a_depth a_height a_D a_perim a_L a_wet]. fold e.
  assert (J : (j = 0 \/ j = 1)%nat) by lia. destruct J as [-> | ->]; cbn [Nat.eqb fst snd].
  - rewrite (Qabs_neg (fst e - ground st)) by lra. rewrite Qleb_true. repeat split; try reflexivity; try lra; auto.
  - rewrite (Qabs_neg (snd e - ground st)) by lra. rewrite Qleb_true. repeat split; try reflexivity; try lra; auto.
Qed.

(** ** Layers of a stack and elements of a mesh *)
From Verif Require Import MeshProofs PileProofs GridProofs WeightProofs.

Section Stack.
Context {V : Type}.
Notation slayer := (@slayer V).

Lemma stack_below : forall (d : list slayer) g, exact_stack g (map s_layer d) -> forall a, In a d -> l_top (s_layer a) <= g /\ l_bottom (s_layer a) < l_top (s_layer a).
Proof.
  induction d as [|x t IH]; intros g H a I; [contradiction|]. cbn [map exact_stack] in H. destruct H as (A & B & C).
  destruct I as [<-|I]; [lra|]. destruct (IH _ C a I). lra.
Qed.

Lemma stack_apart : forall (d : list slayer) g, exact_stack g (map s_layer d) -> apart d /\ NoDup d.
Proof.
  induction d as [|x t IH]; intros g H; [split; [intros a b []|constructor]|]. cbn [map exact_stack] in H. destruct H as (A & B & C).
  destruct (IH _ C) as [AP ND]. assert (L : forall a, In a t -> l_top (s_layer a) <= l_bottom (s_layer x)) by (intros a I; apply (stack_below t _ C a I)). split.
  - intros a b [<-|I] [<-|J]; auto.
  - constructor; auto. intros I. specialize (L x I). lra.
Qed.

Lemma apart_perm : forall l d : list slayer, Permutation l d -> apart d -> apart l.
Proof. intros l d P A a b I J. apply A; eapply Permutation_in; eauto. Qed.

Lemma stack_member : forall (d : list slayer) g e, exact_stack g (map s_layer d) -> (forall a, In a d -> l_bottom (s_layer a) <= snd e \/ fst e <= l_bottom (s_layer a)) ->
  snd e < fst e -> fst e <= g -> stack_bottom g (map s_layer d) <= snd e ->
  exists a, In a d /\ l_bottom (s_layer a) <= snd e /\ fst e <= l_top (s_layer a).
Proof.
  induction d as [|x t IH]; intros g e H R L T B; cbn [map exact_stack stack_bottom] in *; [lra|]. destruct H as (A & C & D).
  destruct (R x (or_introl eq_refl)) as [X|X].
  - exists x. split; [left; auto|]. split; auto. lra.
  - destruct (IH _ e D (fun a I => R a (or_intror I)) L X B) as (a & I & Y & Z). exists a. split; [right|]; auto.
Qed.

Lemma chain_in : forall es top e, chain top es -> In e es -> chain_bottom top es <= snd e /\ snd e < fst e /\ fst e <= top.
Proof.
  induction es as [|x t IH]; intros top e C I; [contradiction|]. cbn [chain chain_bottom] in *. destruct C as (A & B & C).
  destruct I as [<-|I].
  - assert (chain_bottom (snd x) t <= snd x). { clear - C. revert C. generalize (snd x). induction t as [|y t IH]; intros q C; cbn [chain chain_bottom] in *; [lra|]. destruct C as (A & B & C). specialize (IH _ C). lra. }
    lra.
  - destruct (IH _ e C I). lra.
Qed.

Lemma chain_last : forall es top, chain top es -> es <> [] -> snd (last es (0,0)) == chain_bottom top es.
Proof.
  induction es as [|x t IH]; intros top C N; [congruence|]. destruct t as [|y t]; [reflexivity|].
  destruct C as (A & B & C). change (last (x :: y :: t) (0, 0)) with (last (y :: t) (0, 0)). cbn [chain_bottom]. apply (IH (snd x)); [exact C|discriminate].
Qed.

(** Everything the mesh of an accepted model offers to the spring loop *)
Lemma mesh_layers : forall l p b (layers sd : list slayer) g x c m,
  proper l -> make_pile l = Ok p -> pile_bottom p = Ok b ->
  Permutation layers sd -> exact_stack g (map s_layer sd) -> stack_bottom g (map s_layer sd) <= b -> b < g -> sd <> [] ->
  (forall y, In y x -> b <= y) -> 0.01 <= c -> mesh p b (Some (map s_layer layers)) x c = Some m ->
  (forall y, requested p b (Some (map s_layer layers)) x y -> four_decimals y) ->
  apart layers /\ NoDup layers /\ elements_of m <> [] /\ snd (last (elements_of m) (0, 0)) == b /\
  forall e, In e (elements_of m) -> b <= snd e /\ snd e < fst e /\
    (g <= snd e \/ exists sl, In sl layers /\ l_bottom (s_layer sl) <= snd e /\ fst e <= l_top (s_layer sl)).
Proof.
  intros l p b layers sd g x c m P M B PL ST SB BG ND X C MM G.
  destruct (pile_top p) as [t|] eqn:T. 2:{ destruct p; [discriminate B|discriminate T]. }
  destruct (stack_apart sd g ST) as [AP NDu].
  pose proof (grid_hyp p b _ x B G) as GH.
  destruct (grid_mesh l p t b _ x c m P M T B C MM GH X) as (top & CH & CB & RG & CT).
  assert (GG : requested p b (Some (map s_layer layers)) x g).
  { right. left. destruct sd as [|s0 sd']; [congruence|]. exists (map s_layer layers), (s_layer s0). split; [reflexivity|]. split.
    - apply in_map. eapply Permutation_in; [symmetry; exact PL|left; auto].
    - split; [left|lra]. cbn [map exact_stack] in ST. destruct ST as [A _]. symmetry. exact A. }
  assert (PG : contains (primary p b (Some (map s_layer layers)) x) g) by (apply requested_primary; exact GG).
  assert (RSP : forall y, requested p b (Some (map s_layer layers)) x y -> respected (elements_of m) y).
  { intros y R. eapply grid_respected; [|exact MM|apply requested_primary; exact R|apply GH, requested_primary; exact R]. lra. }
  split; [eapply apart_perm; eauto|]. split; [eapply Permutation_NoDup; [symmetry; exact PL|exact NDu]|].
  assert (NE : elements_of m <> []). { intros E. rewrite E in CB. cbn [chain_bottom] in CB. destruct (RG g PG). lra. }
  split; [exact NE|]. split; [rewrite (chain_last _ top CH NE); exact CB|].
  intros e I. destruct (chain_in _ top e CH I) as (A1 & A2 & A3). split; [lra|]. split; [exact A2|].
  destruct (RSP g GG e I) as [Y|Y]; [left; exact Y|]. right.
  assert (R : forall a, In a sd -> l_bottom (s_layer a) <= snd e \/ fst e <= l_bottom (s_layer a)).
  { intros a Ia. destruct (Qlt_le_dec (l_bottom (s_layer a)) b) as [LB|LB]; [left; lra|].
    apply RSP; auto. right. left. exists (map s_layer layers), (s_layer a). split; [reflexivity|]. split; [apply in_map; eapply Permutation_in; [symmetry; exact PL|exact Ia]|].
    split; [right; reflexivity|exact LB]. }
  destruct (stack_member sd g e ST R A2 Y ltac:(lra)) as (a & Ia & Ba & Ta).
  exists a. split; [eapply Permutation_in; [symmetry; exact PL|exact Ia]|auto].
Qed.
End Stack.
