(** Springs that act alike give the same analysis. *)
From Coq Require Import List Bool Arith ZArith QArith Qabs Qminmax Lia Lqa Setoid.
From Verif Require Import Base LinAlg PileModel BeamModel BeamProofs SolveModel SolveSpec SolveProofs SpringModel SpringSpec SpringProofs SoilProofs SpringProper WinklerModel TwinProofs UnitSpec UnitProofs UnitWitness.
From Verif Require Import LateralModel FullModel RandomSpec.
Import ListNotations SpringModel.
Local Open Scope Q_scope.

(** ** Springs *)
Lemma acts_alike_refl : forall c, acts_alike c c.
Proof. intros c. split; [intros d; reflexivity|]. split; [reflexivity|]. split; [reflexivity|]. split; [reflexivity|tauto]. Qed.

Lemma acts_terms : forall k c c' d d', acts_alike c c' -> d == d' -> t3 (lateral_terms k d c) (lateral_terms k d' c').
Proof.
  intros k c c' d d' (R & _ & P0 & P1 & _) H. unfold lateral_terms, pt. rewrite P0, P1. rewrite (Qeqb_comp d d' 0 0 H) by reflexivity.
  destruct (_ || Qeq_bool d' 0)%bool; [repeat split; reflexivity|].
  destruct k; (split; [|split]); cbn [fst snd]; try reflexivity; try assumption.
  - rewrite (resistance_comp c d d' H). apply R.
  - rewrite (resistance_comp c d d' H). apply R.
  - rewrite H. reflexivity.
  - rewrite (resistance_comp c (d - Qmin (1 # 2000) d) (d' - Qmin (1 # 2000) d')) by (rewrite H; reflexivity). apply R.
  - rewrite (resistance_comp c d d' H). apply R.
Qed.

Lemma acts_py : forall c c' k u u', acts_alike c c' -> u == u' -> req Qeq (py_spring u c k) (py_spring u' c' k).
Proof.
  intros c c' k u u' A H. unfold py_spring. pose proof A as (_ & _ & _ & _ & S0).
  assert (E : Qeq_bool (qsum (map fst c)) 0 = Qeq_bool (qsum (map fst c')) 0).
  { destruct (Qeq_bool (qsum (map fst c)) 0) eqn:E1; destruct (Qeq_bool (qsum (map fst c')) 0) eqn:E2; auto.
    - apply Qeq_bool_iff in E1. apply S0 in E1. apply Qeq_bool_iff in E1. congruence.
    - apply Qeq_bool_iff in E2. apply S0 in E2. apply Qeq_bool_iff in E2. congruence. }
  rewrite E. clear E. destruct (Qeq_bool (qsum (map fst c')) 0); [reflexivity|]. apply ratio_comp, acts_terms; [exact A|]. rewrite H. reflexivity.
Qed.

(** ** Models *)
Record acts_model (M M' : wmodel) : Prop := {
  am_n : w_n M' = w_n M; am_mech : w_mech M' = w_mech M; am_L : w_L M' = w_L M;
  am_py : match w_py M, w_py M' with None, None => True | Some f, Some f' => forall e j, acts_alike (f e j) (f' e j) | _, _ => False end;
  am_tz : w_tz M' = w_tz M; am_mt : w_mt M' = w_mt M; am_mtc : w_mtc M' = w_mtc M; am_hb : w_hb M' = w_hb M; am_mb : w_mb M' = w_mb M; am_qz : w_qz M' = w_qz M }.

Section Acts.
Variables (M M' : wmodel) (u u' : vec) (k : kind).
Hypothesis A : acts_model M M'.
Hypothesis H : veq (size M) u u'.

Lemma acts_elements : req elems_eq (soil_elements M u k) (soil_elements M' u' k).
Proof using A H.
  destruct A as [N ME LL PY TZ MT MC HB MB QZ]. unfold soil_elements. rewrite MT, TZ, ME, LL, MC. unfold py_stiffness, tz_stiffness, mt_stiffness. rewrite N. apply (req_bind _ _ elems_eq).
  - unfold opt_res. destruct (w_py M) as [py|], (w_py M') as [py'|]; try contradiction; [|intros e i j; reflexivity]. eapply req_bind.
    + apply collect_comp. intros e He. apply both_comp. intros j Hj. apply acts_py; [apply PY|]. apply spring_disp_comp; auto.
    + intros l l' HL e. destruct (kpair_comp l l' e HL). apply madd_comp; [intros i j; reflexivity|apply elem_py_comp; auto].
  - intros k1 k1' H1. apply (req_bind _ _ elems_eq).
    + unfold opt_res. destruct (w_tz M) as [tz|]; [|exact H1]. eapply req_bind.
      * apply collect_comp. intros e He. apply both_comp. intros j Hj. apply tz_spring_comp, spring_disp_comp; auto; lia.
      * intros l l' HL e. destruct (kpair_comp l l' e HL). apply madd_comp; [apply H1|apply elem_tz_comp; auto].
    + intros k2 k2' H2. unfold opt_res. destruct (w_mt M) as [mt|]; [|exact H2]. destruct (w_py M) as [py|], (w_py M') as [py'|]; try contradiction; [|reflexivity]. eapply req_bind.
      * apply collect_comp. intros e He. apply both_comp. intros j Hj. eapply req_bind; [apply acts_py; [apply PY|apply spring_disp_comp; auto]|].
        intros x y E. rewrite (proj1 (proj2 (PY e j))). apply mt_spring_comp; [apply spring_disp_comp; auto|].
        apply Qmult_comp; [exact E|apply spring_disp_comp; auto].
      * intros l l' HL e. destruct (kpair_comp l l' e HL). apply madd_comp; [apply H2|apply mt_matrix_comp; auto].
Qed.

Lemma acts_size : size M' = size M.
Proof using A. unfold size. rewrite (am_n _ _ A). reflexivity. Qed.

Lemma acts_base : forall p o f K K', (1 <= p <= 3)%nat -> (forall c x y, x == y -> req Qeq (f x c k) (f y c k)) -> same_all K K' ->
  req same_all (add_base M p o f u k K) (add_base M' p o f u' k K').
Proof using A H.
  intros p o f K K' Hp Hf HK. unfold add_base. rewrite acts_size. exact (add_base_comp M u u' k H p o f K K' Hp Hf HK).
Qed.

Lemma acts_build : req same_all (build M u k) (build M' u' k).
Proof using A H.
  unfold build. rewrite (am_n _ _ A), (am_hb _ _ A), (am_mb _ _ A), (am_qz _ _ A). eapply req_bind; [apply acts_elements|]. intros a b E.
  eapply req_bind; [apply acts_base; [lia| |apply jit_build_comp, E]; intros; apply base_spring_comp; auto|]. intros K1 K1' E1.
  eapply req_bind; [apply acts_base; [lia| |exact E1]; intros; apply base_spring_comp; auto|]. intros K2 K2' E2.
  apply acts_base; [lia| |exact E2]. intros; apply base_axial_spring_comp; auto.
Qed.
End Acts.

Lemma acts_winkler : forall solve M M' F U0 r max_iter, solver_ok solve -> acts_model M M' ->
  alike (size M) (fun _ => 1) (fun _ => 1) (winkler_model solve M F U0 r max_iter) (winkler_model solve M' F U0 r max_iter).
Proof.
  intros solve M M' F U0 r mi SO A. apply outcomes_alike with (beta := 1). unfold winkler_model. rewrite (acts_size M M' A).
  apply twin_winkler; auto; try (intros; cbn; lra); try (intros; discriminate).
  - intros d d' k HD. assert (V : veq (size M) d d') by (intros i Hi; rewrite (HD i Hi); ring).
    pose proof (acts_build M M' d d' k A V) as BC. destruct (build M d k); destruct (build M' d' k); cbn [req] in *; try contradiction; auto.
    intros i j _ _. rewrite (BC i j). ring.
  - intros i Hi. ring.
  - intros i Hi. ring.
Qed.

(** ** Springs that end on a plateau *)
Definition flat (v : Q) (c : SpringModel.curve) : Prop := forall q, In q c -> snd q = v.

Lemma interp_flat : forall x v c, c <> [] -> flat v c -> interp x c == v.
Proof.
  intros x v c. induction c as [|[x0 y0] t IH]; intros N F; [congruence|]. pose proof (F (x0, y0) (or_introl eq_refl)) as E0. cbn in E0. subst y0.
  destruct t as [|[x1 y1] t]; [reflexivity|]. rewrite interp_step. pose proof (F (x1, y1) (or_intror (or_introl eq_refl))) as E1. cbn in E1. subst y1.
  destruct (Qltb x x1); [destruct (Qltb x x0); [reflexivity|unfold Qdiv; ring]|]. apply IH; [discriminate|]. intros q I. apply F. right. exact I.
Qed.

Lemma interp_tail : forall h x0 v t t' x, flat v t -> flat v t' -> interp x (h ++ (x0, v) :: t) == interp x (h ++ (x0, v) :: t').
Proof.
  induction h as [|[a b] h IH]; intros x0 v t t' x F F'; cbn [app].
  - rewrite !(interp_flat x v) by (try discriminate; intros q [<-|I]; auto). reflexivity.
  - specialize (IH x0 v t t' x F F'). destruct h as [|[a1 b1] h]; cbn [app] in *; rewrite !interp_step; [destruct (Qltb x x0); [reflexivity|exact IH]|].
    destruct (Qltb x a1); [reflexivity|exact IH].
Qed.

Lemma interp_beyond : forall h x0 v t x, (forall q, In q h -> fst q <= x) -> x0 <= x -> flat v t -> interp x (h ++ (x0, v) :: t) == v.
Proof.
  induction h as [|[a b] h IH]; intros x0 v t x L X F; cbn [app].
  - apply interp_flat; [discriminate|]. intros q [<-|I]; auto.
  - assert (IH' : interp x (h ++ (x0, v) :: t) == v) by (apply IH; auto; intros; apply L; right; auto).
    destruct h as [|[a1 b1] h]; cbn [app] in *; rewrite interp_step.
    + destruct (Qltb x x0) eqn:E; [apply Qltb_true in E; lra|exact IH'].
    + assert (L1 : a1 <= x) by (apply (L (a1, b1)); right; left; reflexivity). destruct (Qltb x a1) eqn:E; [apply Qltb_true in E; lra|exact IH'].
Qed.

Lemma last_flat : forall h x0 v t, flat v t -> snd (last_pt (h ++ (x0, v) :: t)) = v.
Proof.
  intros h x0 v t F. unfold last_pt. induction h as [|a h IH]; cbn [app].
  - revert x0. induction t as [|[a b] t IH]; intros x0; [reflexivity|]. change (snd (last ((a, b) :: t) (0, 0)) = v). pose proof (F (a, b) (or_introl eq_refl)) as E. cbn in E. subst b. apply IH. intros q I. apply F. right. exact I.
  - destruct h; exact IH.
Qed.

Lemma qmax_ge : forall l x, In x l -> x <= qmax l.
Proof.
  induction l as [|a l IH]; intros x I; [contradiction|]. destruct l as [|b l]; [destruct I as [<-|[]]; cbn; lra|].
  change (qmax (a :: b :: l)) with (Qmax a (qmax (b :: l))). destruct I as [<-|I]; [apply Q.le_max_l|]. eapply Qle_trans; [apply IH; exact I|apply Q.le_max_r].
Qed.

Lemma qsum_pos : forall l, (forall x, In x l -> 0 <= x) -> (exists x, In x l /\ 0 < x) -> 0 < qsum l.
Proof.
  assert (N : forall l, (forall x, In x l -> 0 <= x) -> 0 <= qsum l).
  { induction l as [|a l IH]; intros H; cbn [qsum]; [lra|]. pose proof (H a (or_introl eq_refl)). specialize (IH ltac:(intros; apply H; right; auto)). lra. }
  induction l as [|a l IH]; intros H (x & I & P); [contradiction|]. cbn [qsum]. pose proof (H a (or_introl eq_refl)). destruct I as [<-|I].
  - specialize (N l ltac:(intros; apply H; right; auto)). lra.
  - specialize (IH ltac:(intros; apply H; right; auto) ltac:(eauto)). lra.
Qed.

Lemma plateau_alike : forall h x0 v t t', (2 <= length h)%nat -> length t = length t' -> flat v t -> flat v t' ->
  (forall q, In q h -> 0 <= fst q <= x0) -> 0 < x0 -> (forall q, In q t -> x0 <= fst q) -> (forall q, In q t' -> x0 <= fst q) ->
  acts_alike (h ++ (x0, v) :: t) (h ++ (x0, v) :: t').
Proof.
  intros h x0 v t t' L LT F F' HH X0 T T'.
  assert (PS : forall s, (forall q, In q s -> x0 <= fst q) -> 0 < qsum (map fst (h ++ (x0, v) :: s))).
  { intros s HS. apply qsum_pos.
    - intros x I. apply in_map_iff in I. destruct I as (q & <- & I). apply in_app_or in I. destruct I as [I|[<-|I]]; [apply HH; auto|cbn; lra|specialize (HS q I); lra].
    - exists x0. split; [|exact X0]. apply in_map_iff. exists (x0, v). split; [reflexivity|]. apply in_or_app. right. left. reflexivity. }
  assert (MX : forall s, x0 <= qmax (map fst (h ++ (x0, v) :: s))).
  { intros s. apply qmax_ge. apply in_map_iff. exists (x0, v). split; [reflexivity|]. apply in_or_app. right. left. reflexivity. }
  assert (RB : forall s d, flat v s -> x0 <= d -> resistance (h ++ (x0, v) :: s) d == v).
  { intros s d FS HD. unfold resistance. destruct (Qltb _ d); [rewrite last_flat by auto; reflexivity|]. apply interp_beyond; auto. intros q I. destruct (HH q I). lra. }
  split; [|split; [|split; [|split]]].
  - intros d. destruct (Qlt_le_dec d x0) as [D|D]; [|rewrite !RB by auto; reflexivity]. unfold resistance.
    pose proof (MX t) as M1. pose proof (MX t') as M2. destruct (Qltb _ d) eqn:E1; [apply Qltb_true in E1; lra|]. destruct (Qltb _ d) eqn:E2 in |- *; [apply Qltb_true in E2; lra|].
    apply interp_tail; auto.
  - rewrite !map_app. cbn [map]. do 2 f_equal. clear - LT F F'. revert t' LT F'. induction t as [|a t IH]; intros [|b t'] LT F'; try discriminate; [reflexivity|]. cbn [map].
    rewrite (F a (or_introl eq_refl)), (F' b (or_introl eq_refl)). f_equal. apply IH; [intros q I; apply F; right; exact I|cbn in LT; lia|intros q I; apply F'; right; exact I].
  - rewrite !app_nth1 by lia. reflexivity.
  - rewrite !app_nth1 by lia. reflexivity.
  - pose proof (PS t T). pose proof (PS t' T'). split; intros; exfalso; lra.
Qed.

