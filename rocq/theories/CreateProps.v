(** Properties C53, C54, C55, C65, C66 and C67: acceptance of models and creation of springs. *)
From Coq Require Import List Bool Arith ZArith QArith Qabs Permutation Lia Lqa.
From Verif Require Import Base PileModel PileSpec MeshModel MeshSpec StressModel StressSpec LinAlg SolveModel SolveSpec GridProofs CreateModel CreateProofs StressProps.
Import ListNotations.
Local Open Scope Q_scope.

(** C53 *)
Theorem C53_linear : forall t b d h x, 0 < h -> 0 <= d -> d <= h ->
  exists v, value_at (ListOf [t; b]) d h x = Ok v /\ between t b v /\ (d == 0 -> v == t) /\ (d == h -> v == b) /\ v * h == t * (h - d) + b * d.
Proof.
  intros t b d h x H A B. destruct (value_within t b d h x H A B) as (v & E & W & T & U). destruct (value_linear (ListOf [t; b]) t b d h x H (or_introl eq_refl)) as (v' & E' & L).
  exists v. assert (v' = v) by congruence. subst v'. exact (conj E (conj W (conj T (conj U L)))).
Qed.
Print Assumptions C53_linear.

Theorem C53_constant : forall p t d h x, 0 < h -> (p = Number t \/ p = ListOf [t]) -> exists v, value_at p d h x = Ok v /\ v == t.
Proof. exact value_constant. Qed.
Print Assumptions C53_constant.

Theorem C53_function : forall f d h x, value_at (Function f) d h x = Ok (f x).
Proof. reflexivity. Qed.
Print Assumptions C53_function.

Theorem C53_error : forall p d h x, 0 < h -> (value_at p d h x = Err TypeError <-> p = Unsupported \/ exists l, p = ListOf l /\ length l <> 1%nat /\ length l <> 2%nat).
Proof. exact value_error. Qed.
Print Assumptions C53_error.

Example C53_case : exists v, value_at (ListOf [20; 50]) 1 3 10 = Ok v /\ v == 30.
Proof. eexists. split; [reflexivity|]. vm_compute. reflexivity. Qed.

(** C54 *)
Theorem C54_accepted_iff : forall rx ry rz fx fy fz soil, check_bc rx ry rz fx fy fz soil = Ok tt <->
  soil = false /\ (loaded fx \/ loaded fy \/ loaded fz) /\ (loaded fz -> loaded rz) /\ (loaded fx \/ loaded fy -> (2 <= nonzero ry + nonzero rx)%nat).
Proof. exact check_bc_iff. Qed.
Print Assumptions C54_accepted_iff.

(** A beam that the equations can be solved for is never rejected if it is loaded. *)
Theorem C54_held_is_accepted : forall n r fx fy fz, held n r -> loaded fx \/ loaded fy \/ loaded fz ->
  check_bc (column n r 2) (column n r 1) (column n r 0) fx fy fz false = Ok tt.
Proof.
  intros n r fx fy fz H L. apply check_bc_iff. destruct (held_counts n r H) as [A B].
  split; [reflexivity|]. split; [exact L|]. split; [intros _; apply nonzero_pos; lia|intros _; lia].
Qed.
Print Assumptions C54_held_is_accepted.

(** Accepted, but the supports hold neither translation. *)
Theorem C54_accepted_is_held_refuted : exists n r fy, (forall i, (i <= n)%nat -> r (3 * i)%nat = true) /\
  check_bc (column n r 2) (column n r 1) (column n r 0) [] fy [] false = Ok tt /\ ~ held n r.
Proof.
  exists 1%nat, (fun i => negb (Nat.eqb (i mod 3) 1)), [1]. split; [|split].
  - intros i Hi. assert (C : (i = 0 \/ i = 1)%nat) by lia. destruct C as [-> | ->]; reflexivity.
  - vm_compute. reflexivity.
  - intros (_ & a & Ha & R & _). assert (C : (a = 0 \/ a = 1)%nat) by lia. destruct C as [-> | ->]; discriminate R.
Qed.
Print Assumptions C54_accepted_is_held_refuted.

Example C54_cantilever : held 2 (fun i => (6 <=? i)%nat) /\ check_bc (column 2 (fun i => (6 <=? i)%nat) 2) (column 2 (fun i => (6 <=? i)%nat) 1) (column 2 (fun i => (6 <=? i)%nat) 0) [0; 0; 0] [5; 0; 0] [0; 0; 0] false = Ok tt.
Proof.
  assert (H : held 2 (fun i => (6 <=? i)%nat)).
  { split; [exists 2%nat; split; [lia|reflexivity]|]. exists 2%nat. split; [lia|]. split; [reflexivity|]. left. exists 2%nat. split; [lia|reflexivity]. }
  split; [exact H|]. apply C54_held_is_accepted; auto. right. left. exists 5. split; [left; auto|discriminate].
Qed.

(** C55 *)
Theorem C55_accepted_iff : forall len c pb sb, accept_model len c pb sb = Ok tt <-> 1#100 <= c /\ 5 * c <= len /\ (forall b, sb = Some b -> b <= pb).
Proof. exact accept_iff. Qed.
Print Assumptions C55_accepted_iff.

Theorem C55_only_value_error : forall len c pb sb e, accept_model len c pb sb = Err e -> e = ValueError.
Proof. exact accept_error. Qed.
Print Assumptions C55_only_value_error.

Example C55_case : accept_model 20 (1#2) (-20) (Some (-30)) = Ok tt /\ accept_model 20 (1#2) (-20) (Some (-19)) = Err ValueError /\ accept_model 2 (1#2) (-2) None = Err ValueError.
Proof. vm_compute. auto. Qed.

(** A model whose elevations have at most four decimals *)
Definition fits {V : Type} (l p : list section) (b : Q) (layers sd : list (@slayer V)) (st : setting) (x : list Q) (c : Q) (m : list Q) : Prop :=
  proper l /\ make_pile l = Ok p /\ pile_bottom p = Ok b /\ tip st = b /\
  Permutation layers sd /\ exact_stack (ground st) (map s_layer sd) /\ stack_bottom (ground st) (map s_layer sd) <= b /\ b < ground st /\ sd <> [] /\
  (forall y, In y x -> b <= y) /\ 0.01 <= c /\ mesh p b (Some (map s_layer layers)) x c = Some m /\ elems st = elements_of m /\
  (forall y, requested p b (Some (map s_layer layers)) x y -> four_decimals y).

(** C65: an element above the ground has no springs; every other one gets the springs of the one layer
    it lies in, evaluated for the depth, stress and width of its own ends. *)
Theorem C65_springs_of_own_layer : forall V l p b layers sd st x c m, @fits V l p b layers sd st x c m ->
  forall i j, (i < length (elems st))%nat -> (j < 2)%nat -> let e := nth i (elems st) (0, 0) in let M := create_springs st layers in
  (ground st <= snd e /\ m_py M i j = None /\ m_mt M i j = None /\ m_tz M i j = None) \/
  (snd e < ground st /\ exists sl, (forall s, In s layers /\ l_bottom (s_layer s) <= snd e /\ fst e <= l_top (s_layer s) <-> s = sl) /\
     exists a, shaft_arguments st (s_layer sl) i j a /\
     m_py M i j = match s_lat sl with Some la => if has_py la && distributed_lateral st then Some (f_py la a) else None | None => None end /\
     m_mt M i j = match s_lat sl with Some la => if has_mt la && distributed_moment st then Some (f_mt la a) else None | None => None end /\
     m_tz M i j = match s_ax sl with Some ax => if distributed_axial st then Some (f_tz ax a) else None | None => None end).
Proof.
  intros V l p b layers sd st x c m (P & MP & B & TB & PL & ST & SB & BG & ND & X & C & MM & EM & G) i j Hi Hj e M.
  destruct (mesh_layers l p b layers sd (ground st) x c m P MP B PL ST SB BG ND X C MM G) as (AP & NDu & NE & LT & EL).
  rewrite EM in Hi. assert (IE : In e (elements_of m)) by (unfold e; rewrite EM; apply nth_In; exact Hi).
  assert (TOPS : forall s, In s layers -> l_top (s_layer s) <= ground st) by (intros s I; apply (stack_below sd (ground st) ST s); eapply Permutation_in; eauto).
  destruct (EL e IE) as (A1 & A2 & [A3|(sl & I & A4 & A5)]).
  - left. split; [exact A3|]. apply no_layer; auto. intros s I (_ & U). specialize (TOPS s I). unfold elem in U. fold e in U. lra.
  - right. specialize (TOPS sl I). split; [lra|]. exists sl.
    assert (H : holds st sl i) by (split; [rewrite EM; exact Hi|]; split; [exact A2|split; [exact A4|exact A5]]).
    split.
    + intros s. split; [|intros ->; auto]. intros (Is & U & W). apply (owner_unique st layers sl s i AP I H). apply in_work. split; [exact Is|]. split; [rewrite EM; exact Hi|]. auto.
    + exists (shaft_args st (s_layer sl) i j). split; [apply shaft_args_ok; auto; fold e; lra|]. apply (shaft_springs st layers sl i j AP I H Hj).
Qed.
Print Assumptions C65_springs_of_own_layer.

(** C66: the base springs come from the one layer that holds the lowest element. *)
Theorem C66_base_springs_partial : forall V l p b layers sd st x c m, @fits V l p b layers sd st x c m ->
  let M := create_springs st layers in let n := (length (elems st) - 1)%nat in let e := last (elems st) (0, 0) in
  snd e == tip st /\ exists sl, (forall s, In s layers /\ l_bottom (s_layer s) <= snd e /\ fst e <= l_top (s_layer s) <-> s = sl) /\
    exists a, a_sig a = last (sig_bottom st) None /\ a_depth a == l_top (s_layer sl) - tip st /\ a_height a == l_top (s_layer sl) - l_bottom (s_layer sl) /\
      a_D a = width st n /\ a_L a == ground st - tip st /\ (a_wet a = true <-> tip st <= water st) /\
      a_X a == ground st - soil_bottom st /\
      m_hb M = match s_lat sl with Some la => if has_hb la && base_shear st then Some (f_hb la a) else None | None => None end /\
      m_mb M = match s_lat sl with Some la => if has_mb la && base_moment st then Some (f_mb la a) else None | None => None end /\
      m_qz M = match s_ax sl with Some ax => if base_axial st then Some (f_qz ax a) else None | None => None end.
Proof.
  intros V l p b layers sd st x c m (P & MP & B & TB & PL & ST & SB & BG & ND & X & C & MM & EM & G) M n e.
  destruct (mesh_layers l p b layers sd (ground st) x c m P MP B PL ST SB BG ND X C MM G) as (AP & NDu & NE & LT & EL).
  assert (LEN : length (elems st) = S n). { unfold n. rewrite EM. destruct (elements_of m); [congruence|cbn; lia]. }
  assert (EN : nth n (elems st) (0, 0) = e).
  { unfold e, n. clear. induction (elems st) as [|y t IH]; [reflexivity|]. destruct t as [|y' t]; [reflexivity|]. cbn [length Nat.sub] in *. rewrite Nat.sub_0_r in *. exact IH. }
  assert (TE : snd e == tip st). { unfold e. rewrite EM, TB. exact LT. }
  assert (IN : forall i, (i <= n)%nat -> In (nth i (elems st) (0,0)) (elements_of m)) by (intros i Hi; rewrite EM; apply nth_In; rewrite <- EM; lia).
  split; [exact TE|].
  destruct (EL e) as (A1 & A2 & [A3|(sl & I & A4 & A5)]); [rewrite <- EN; apply IN; lia| |].
  { exfalso. rewrite TB in TE. lra. }
  exists sl. assert (H : holds st sl n) by (unfold holds, elem; rewrite EN; split; [lia|auto]).
  assert (AB : forall i, (i <= n)%nat -> snd (elem st i) < fst (elem st i) /\ tip st <= snd (elem st i)).
  { intros i Hi. unfold elem. destruct (EL _ (IN i Hi)) as (U1 & U2 & _). rewrite TB. auto. }
  assert (TN : snd (elem st n) == tip st) by (unfold elem; rewrite EN; exact TE).
  split.
  - intros s. split; [|intros ->; auto]. intros (Is & U & W). apply (owner_unique st layers sl s n AP I H). apply in_work. unfold elem. rewrite EN. split; [exact Is|]. split; [lia|auto].
  - exists (base_args st (s_layer sl) n). cbn [base_args a_sig a_depth a_height a_D a_L a_wet a_X].
    split; [reflexivity|]. split; [reflexivity|]. split; [reflexivity|]. split; [reflexivity|]. split; [reflexivity|]. split; [apply Qleb_true|]. split; [reflexivity|].
    destruct (base_springs st layers n LEN TN AB sl NDu AP I H) as (H1 & H2 & H3).
    unfold writes_hb in H1. unfold writes_mb in H2. unfold writes_qz in H3. rewrite (holds_tip st n TN sl H) in *. auto.
Qed.
Print Assumptions C66_base_springs_partial.

(** A pile of two sections, tip at -8, in two layers listed from below, the lower one reaching -20.
    Springs are their own arguments. *)
Definition echo : lateral := {| has_py := true; has_hb := true; has_mt := true; has_mb := true;
  f_py := fun a => a; f_mt := fun a => a; f_hb := fun a => a; f_mb := fun a => a |}.
Definition echo_ax : axial := {| f_tz := fun a => a; f_qz := fun a => a |}.
Definition lay (l : layer) : @slayer args := {| s_layer := l; s_lat := Some echo; s_ax := Some echo_ax |}.
Definition lays : list (@slayer args) := map lay ex_ls.
Definition mesh1 : list Q := match mesh ex_p (-8) (Some ex_ls) [-1] 2 with Some m => m | None => [] end.
Definition set1 : setting := {|
  distributed_lateral := true; distributed_moment := true; base_shear := true; base_moment := true; distributed_axial := true; base_axial := true;
  ground := 0; soil_bottom := -20; water := -1; tip := -8;
  elems := elements_of mesh1;
  sig_top := match stress ex_ls 0 (-1) (elements_of mesh1) with Ok (t, _) => t | Err _ => [] end;
  sig_bottom := match stress ex_ls 0 (-1) (elements_of mesh1) with Ok (_, b) => b | Err _ => [] end;
  width := fun i => nth i (map (element_property s_width (stable_rows ex_p)) (elements_of mesh1)) None;
  outer := fun i => nth i (map (element_property s_outer (stable_rows ex_p)) (elements_of mesh1)) None;
  inner := fun i => nth i (map (element_property s_inner (stable_rows ex_p)) (elements_of mesh1)) None |}.

Lemma set1_fits : fits ex_l ex_p (-8) lays (map lay ex_d) set1 [-1] 2 mesh1.
Proof.
  unfold fits. split; [intros s [<-|[<-|[]]]; reflexivity|]. split; [vm_compute; reflexivity|]. split; [reflexivity|]. split; [reflexivity|].
  split; [apply perm_swap|]. split; [cbn; repeat split; reflexivity|]. split; [vm_compute; discriminate|]. split; [reflexivity|]. split; [discriminate|].
  split; [intros y [<-|[]]; discriminate|]. split; [discriminate|]. split; [vm_compute; reflexivity|]. split; [reflexivity|].
  intros y H. apply ex_requested in H. destruct H as [H|[H|[H|[H|[H|H]]]]].
    - exists 20000%Z; rewrite H; reflexivity.
    - exists (-30000)%Z; rewrite H; reflexivity.
    - exists (-80000)%Z; rewrite H; reflexivity.
    - exists 0%Z; rewrite H; reflexivity.
    - exists (-40000)%Z; rewrite H; reflexivity.
    - exists (-10000)%Z; rewrite H; reflexivity.
Qed.

Example C65_case : length (elems set1) = 6%nat /\ m_py (create_springs set1 lays) 0 0 = None /\
  exists a, m_py (create_springs set1 lays) 5 0 = Some a /\ a_X a == 6 /\ a_depth a == 2.
Proof.
  split; [vm_compute; reflexivity|]. split; [vm_compute; reflexivity|].
  eexists. split; [vm_compute; reflexivity|]. cbn. split; reflexivity.
Qed.

(** Off the grid of four decimals an element may get the springs of no layer although it is in the ground. *)
Definition fine : list section := [mkSection 0 (-10) 1 1 1 1 1 1 1].
Definition mesh2 : list Q := match mesh fine (-10) (Some [mkLayer 0 (-(400006#100000)) 18; mkLayer (-(400006#100000)) (-20) 18]) [] 2 with Some m => m | None => [] end.
Definition lays2 : list (@slayer args) := map lay [mkLayer 0 (-(400006#100000)) 18; mkLayer (-(400006#100000)) (-20) 18].
Definition set2 : setting := {|
  distributed_lateral := true; distributed_moment := true; base_shear := true; base_moment := true; distributed_axial := true; base_axial := true;
  ground := 0; soil_bottom := -20; water := -1; tip := -10; elems := elements_of mesh2; sig_top := []; sig_bottom := [];
  width := fun _ => Some 1; outer := fun _ => Some 1; inner := fun _ => Some 1 |}.

Theorem C65_off_grid_refuted : exists l p b st layers x c m i, proper l /\ make_pile l = Ok p /\ pile_bottom p = Ok b /\ tip st = b /\
  make_profile (ground st) (map s_layer layers) = Ok (map s_layer layers) /\ exact_stack (ground st) (map s_layer layers) /\
  stack_bottom (ground st) (map s_layer layers) <= b /\ 0.01 <= c /\ mesh p b (Some (map s_layer layers)) x c = Some m /\ elems st = elements_of m /\
  (i < length (elems st))%nat /\ fst (nth i (elems st) (0, 0)) <= ground st /\ (forall s, In s layers -> exists la, s_lat s = Some la /\ has_py la = true) /\ distributed_lateral st = true /\
  @m_py args (create_springs st layers) i 0 = None.
Proof.
  exists fine, fine, (-10), set2, lays2, [], 2, mesh2, 2%nat.
  split; [intros s [<-|[]]; reflexivity|]. split; [vm_compute; reflexivity|]. split; [reflexivity|]. split; [reflexivity|].
  split; [vm_compute; reflexivity|]. split; [cbn; repeat split; reflexivity|]. split; [vm_compute; discriminate|]. split; [discriminate|]. split; [vm_compute; reflexivity|]. split; [reflexivity|].
  split; [vm_compute; lia|]. split; [vm_compute; discriminate|]. split; [intros s [<-|[<-|[]]]; exists echo; split; reflexivity|]. split; [reflexivity|]. vm_compute. reflexivity.
Qed.
Print Assumptions C65_off_grid_refuted.

(** C66: full statement: the depth passed to the base springs is the depth of the tip.
    It is the thickness of the soil profile, whatever the tip. *)
Theorem C66_tip_depth_refuted : exists l p b layers sd st x c m a, @fits args l p b layers sd st x c m /\
  m_hb (create_springs st layers) = Some a /\ ground st - tip st == 8 /\ a_X a == 20.
Proof.
  exists ex_l, ex_p, (-8), lays, (map lay ex_d), set1, [-1], 2, mesh1. eexists. split; [exact set1_fits|]. split; [vm_compute; reflexivity|]. split; reflexivity.
Qed.
Print Assumptions C66_tip_depth_refuted.

Theorem C66_tip_depth_iff : forall st l i, a_X (base_args st l i) == ground st - tip st <-> soil_bottom st == tip st.
Proof. intros st l i. cbn [base_args a_X]. split; intros H; lra. Qed.
Print Assumptions C66_tip_depth_iff.

(** C67: full statement: friction inside the pile is taken on the inner perimeter.  Both perimeters passed
    to the t-z springs are the outer one. *)
Theorem C67_perimeters_partial : forall st l i j, a_perim (shaft_args st l i j) = outer st i /\ a_perim_in (shaft_args st l i j) = outer st i.
Proof. intros. split; reflexivity. Qed.
Print Assumptions C67_perimeters_partial.

Definition tube : list section := [mkSection 2 (-8) 1 1 1 1 3 2 1].
Definition mesh3 : list Q := match mesh tube (-8) (Some ex_ls) [] 2 with Some m => m | None => [] end.
Definition set3 : setting := {|
  distributed_lateral := true; distributed_moment := true; base_shear := true; base_moment := true; distributed_axial := true; base_axial := true;
  ground := 0; soil_bottom := -20; water := -1; tip := -8;
  elems := elements_of mesh3; sig_top := []; sig_bottom := [];
  width := fun i => nth i (map (element_property s_width (stable_rows tube)) (elements_of mesh3)) None;
  outer := fun i => nth i (map (element_property s_outer (stable_rows tube)) (elements_of mesh3)) None;
  inner := fun i => nth i (map (element_property s_inner (stable_rows tube)) (elements_of mesh3)) None |}.

Lemma set3_fits : fits tube tube (-8) lays (map lay ex_d) set3 [] 2 mesh3.
Proof.
  unfold fits. split; [intros s [<-|[]]; reflexivity|]. split; [vm_compute; reflexivity|]. split; [reflexivity|]. split; [reflexivity|].
  split; [apply perm_swap|]. split; [cbn; repeat split; reflexivity|]. split; [vm_compute; discriminate|]. split; [reflexivity|]. split; [discriminate|].
  split; [intros y []|]. split; [discriminate|]. split; [vm_compute; reflexivity|]. split; [reflexivity|].
  intros y [(s & [<-|[]] & H)|[(ls & y' & E & I & H & B)|(u & [] & H)]].
  - cbn in H. destruct H as [H|H]; [exists 20000%Z|exists (-80000)%Z]; rewrite H; reflexivity.
  - injection E as <-. destruct I as [<-|[<-|[]]]; cbn in H; destruct H as [H|H].
    + exists (-40000)%Z; rewrite H; reflexivity.
    + exists (-200000)%Z; rewrite H; reflexivity.
    + exists 0%Z; rewrite H; reflexivity.
    + exists (-40000)%Z; rewrite H; reflexivity.
Qed.

Theorem C67_inner_perimeter_refuted : exists l p b layers sd st x c m i a, @fits args l p b layers sd st x c m /\
  m_tz (create_springs st layers) i 0 = Some a /\ inner st i = Some 2 /\ a_perim_in a = Some 3.
Proof.
  exists tube, tube, (-8), lays, (map lay ex_d), set3, [], 2, mesh3, 2%nat. eexists. split; [exact set3_fits|]. split; [vm_compute; reflexivity|]. split; vm_compute; reflexivity.
Qed.
Print Assumptions C67_inner_perimeter_refuted.
