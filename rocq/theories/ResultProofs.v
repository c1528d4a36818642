(** Proofs about results: mobilisation table, failed analyses, extremes. *)
From Coq Require Import List Bool Arith ZArith QArith Qabs Qminmax Lia Lqa.
From Verif Require Import Base LinAlg PileModel MeshModel MeshProofs BeamModel SolveModel SolveSpec SolveProofs SpringModel SpringSpec SpringProofs SoilProofs
  WinklerModel WinklerSpec WinklerProofs ResultModel ResultSpec.
Import ListNotations.
Local Open Scope Q_scope.

Lemma spring_list_length : forall n, length (spring_list n) = (2 * n)%nat.
Proof.
  intros n. unfold spring_list. rewrite (flat_map_concat_map). induction (seq 0 n) as [|a l IH] eqn:E in n |- *.
  - destruct n; [reflexivity|discriminate].
  - destruct n; [discriminate|]. assert (L : length l = n) by (pose proof (seq_length (S n) 0) as X; rewrite E in X; simpl in X; lia).
    clear E. revert n L. clear. induction l as [|b l IH]; intros n L; simpl in *; subst n; simpl; auto.
    specialize (IH _ eq_refl). simpl in IH. lia.
Qed.

Lemma flat_pair_nth : forall l e j d, (e < length l)%nat -> (j < 2)%nat ->
  nth (2 * e + j) (flat_map (fun e : nat => [(e, 0%nat); (e, 1%nat)]) l) d = (nth e l 0%nat, j).
Proof.
  induction l as [|a l IH]; intros e j d He Hj; [simpl in He; lia|]. cbn [flat_map app].
  destruct e as [|e].
  - destruct j as [|[|j]]; try lia; reflexivity.
  - replace (2 * S e + j)%nat with (S (S (2 * e + j))) by lia. cbn [nth]. apply IH; [cbn [length] in He; lia|auto].
Qed.

Lemma spring_list_nth : forall n e j d, (e < n)%nat -> (j < 2)%nat -> nth (2 * e + j) (spring_list n) d = (e, j).
Proof.
  intros n e j d He Hj. unfold spring_list. rewrite flat_pair_nth by (auto; rewrite seq_length; auto). rewrite seq_nth by auto. reflexivity.
Qed.

Lemma map_spring : forall {A} n (f : nat * nat -> A) e j d, (e < n)%nat -> (j < 2)%nat -> nth (2 * e + j) (map f (spring_list n)) d = f (e, j).
Proof.
  intros A n f e j d He Hj. rewrite (nth_indep _ d (f (0%nat, 0%nat))) by (rewrite map_length, spring_list_length; lia).
  rewrite map_nth, spring_list_nth by auto. reflexivity.
Qed.

(** what row [2 e + j] holds *)
Lemma rows_inv : forall M z py mt u rows, springs_mob M z py mt (Some u) = Ok rows ->
  length rows = (2 * w_n M)%nat /\
  forall e j d, (e < w_n M)%nat -> (j < 2)%nat -> exists kp km,
    let x := spring_disp (w_n M) u 1 e j in
    py_spring x (py e j) Secant = Ok kp /\
    mt_spring (spring_disp (w_n M) u 2 e j) (kp * x) (map snd (py e j)) (mt e j) Secant = Ok km /\
    nth (2 * e + j) rows d = {| r_z := nth (2 * e + j) (double_inner z) 0; r_p := Some (Qabs (x * kp)); r_pmax := qmax (map snd (py e j));
       r_m := Some (Qabs (spring_disp (w_n M) u 2 e j * km)); r_mmax := moment_max (mt e j) |}.
Proof.
  intros M z py mt u rows H. unfold springs_mob in H.
  destruct (py_stiffness M py u Secant) as [lp|] eqn:P; cbn [bind] in H; [|discriminate].
  destruct (mt_stiffness M py mt u Secant) as [lm|] eqn:T; cbn [bind] in H; [|discriminate].
  apply (f_equal (fun r => match r with Ok a => a | Err _ => [] end)) in H. subst rows. split; [rewrite map_length; apply spring_list_length|].
  intros e j d He Hj. rewrite map_spring by auto.
  destruct (springs_ok _ _ _ P e He) as [P0 P1]. destruct (springs_ok _ _ _ T e He) as [T0 T1].
  destruct j as [|[|j]]; [| |lia]; unfold side; cbn [Nat.eqb].
  - rewrite P0 in T0. cbn [bind] in T0. exists (fst (kpair lp e)), (fst (kpair lm e)). cbv zeta. auto.
  - rewrite P1 in T1. cbn [bind] in T1. exists (snd (kpair lp e)), (snd (kpair lm e)). cbv zeta. auto.
Qed.

Lemma regular_ne : forall c, regular c -> c <> [].
Proof. intros c (L & _) ->. simpl in L. lia. Qed.

Lemma abs_secant : forall x k p, 0 <= k -> k * Qabs x == p -> Qabs (x * k) == p.
Proof. intros x k p K E. rewrite Qabs_Qmult, (Qabs_pos k) by auto. rewrite <- E. ring. Qed.

Lemma hardening_max : forall c, c <> [] -> hardening c -> qmax (map snd c) == snd (point c (length c - 1)).
Proof.
  intros c NE HD. assert (NM : map snd c <> []) by (destruct c; [contradiction|discriminate]).
  destruct (qmax_in (map snd c) NM) as (x & IN & E). apply in_map_iff in IN. destruct IN as (q & <- & IQ).
  pose proof (hardening_le c q NE HD IQ) as L. rewrite <- last_point by auto.
  assert (G : snd (last c (0, 0)) <= qmax (map snd c)) by (apply qmax_ge, in_map, last_in; auto).
  apply Qle_antisym; [rewrite E; auto|auto].
Qed.

Lemma absent_zero : forall c u, absent c -> py_spring u c Secant = Ok 0 /\ qmax (map snd c) == 0.
Proof.
  intros c u [NE Z]. split.
  - unfold py_spring. replace (Qeq_bool (qsum (map fst c)) 0) with true; auto. symmetry. apply Qeq_bool_iff.
    assert (E : forall l : curve, (forall p, In p l -> origin p) -> qsum (map fst l) == 0).
    { induction l as [|p l IH]; intros H; [reflexivity|]. cbn [map qsum]. rewrite IH by (intros; apply H; right; auto).
      destruct (H p (or_introl eq_refl)) as [A _]. rewrite A. reflexivity. }
    apply E; auto.
  - assert (NM : map snd c <> []) by (destruct c; [contradiction|discriminate]).
    destruct (qmax_in (map snd c) NM) as (x & IN & E). apply in_map_iff in IN. destruct IN as (q & <- & IQ). rewrite E. apply (proj2 (Z q IQ)).
Qed.

Lemma on_curve_eq : forall c d d' p p', d == d' -> p == p' -> on_curve c d p -> on_curve c d' p'.
Proof.
  intros c d d' p p' E E' [(j & A & B & C & D & F)|[[A B]|[A B]]].
  - left. exists j. rewrite <- E. rewrite <- E'. auto.
  - right. left. split; [rewrite <- E|rewrite <- E']; auto.
  - right. right. split; [rewrite <- E|rewrite <- E']; auto.
Qed.

Lemma family_curve : forall p pp cols, family pp cols -> family_at p pp cols (mt_curve p pp cols).
Proof.
  intros p pp cols (L & ND & NE & H). unfold mt_curve, curve in *. destruct cols as [|c0 cols]; [simpl in L; lia|]. cbn [tl]. split; [cbn [length]; rewrite map_length; reflexivity|].
  split; [split; reflexivity|]. intros i I0 IL. destruct i as [|i]; [lia|]. cbn [nth]. cbn [length] in IL.
  set (g := fun col : list (Q * Q) => (interp p (combine pp (map fst col)), interp p (combine pp (map snd col)))).
  assert (E : point ((0, 0) :: map g cols) (S i) = g (nth i cols [])).
  { unfold point. cbn [nth]. rewrite (nth_indep _ (0, 0) (g [])) by (rewrite map_length; apply Nat.succ_lt_mono; exact IL). apply map_nth. }
  rewrite E. unfold g. cbn [fst snd]. destruct (H (nth i cols [])) as [LC MC]; [right; apply nth_In; apply Nat.succ_lt_mono; exact IL|].
  assert (NC : forall f : Q * Q -> Q, combine pp (map f (nth i cols [])) <> []).
  { intros f X. apply (f_equal (@length _)) in X. rewrite combine_length, map_length in X. cbn [length] in X.
    assert (length pp <> 0)%nat by (destruct pp; [contradiction|discriminate]).
    rewrite LC in X. lia. }
  split; apply interp_on_curve; auto; apply combine_ordered; auto.
Qed.

Lemma combine_last : forall (pp ys : list Q), length pp = length ys -> ys <> [] -> forall q, In q (combine pp ys) -> nondecreasing ys -> snd q <= last ys 0.
Proof.
  induction pp as [|a pp IH]; intros ys L NE q IQ ND; [destruct IQ|]. destruct ys as [|y ys]; [destruct IQ|]. cbn [combine] in IQ. cbn [length] in L.
  destruct ys as [|y' ys].
  - destruct pp; [|simpl in L; lia]. destruct IQ as [<-|[]]. cbn. lra.
  - destruct ND as [N1 N2]. change (last (y :: y' :: ys) 0) with (last (y' :: ys) 0). destruct IQ as [<-|IQ].
    + cbn [snd]. destruct pp as [|b pp]; [simpl in L; lia|]. eapply Qle_trans; [exact N1|].
      apply (IH (y' :: ys) (eq_add_S _ _ L) ltac:(discriminate) (b, y')); [left; reflexivity|exact N2].
    + apply IH; auto. discriminate.
Qed.

Lemma last_map : forall {A B} (f : A -> B) l a, l <> [] -> last (map f l) (f a) = f (last l a).
Proof. induction l as [|x l IH]; intros a NE; [contradiction|]. destruct l as [|y l]; [reflexivity|]. cbn [map last] in *. apply IH. discriminate. Qed.

Lemma curve_last_moment : forall p pp cols, family pp cols -> let c := mt_curve p pp cols in
  snd (point c (length c - 1)) <= moment_max cols.
Proof.
  intros p pp cols (L & ND & NE & H) c. unfold c, moment_max, mt_curve, last_pt, curve in *. clear c. destruct cols as [|c0 cols]; [simpl in L; lia|]. cbn [tl].
  set (g := fun col : list (Q * Q) => (interp p (combine pp (map fst col)), interp p (combine pp (map snd col)))).
  destruct cols as [|c1 cols]; [simpl in L; lia|].
  assert (E : point ((0, 0) :: map g (c1 :: cols)) (length ((0, 0) :: map g (c1 :: cols)) - 1) = g (last (c1 :: cols) [])).
  { rewrite <- last_point by discriminate. cbn [last map]. change (match map g cols with [] => g c1 | _ :: _ => last (map g cols) (0,0) end) with (last (map g (c1 :: cols)) (0, 0)).
    assert (X : forall (l : list (list (Q * Q))), l <> [] -> last (map g l) (0, 0) = g (last l [])).
    { induction l as [|x l IH]; intros N; [contradiction|]. destruct l as [|y l]; [reflexivity|]. cbn [map last] in *. apply IH. discriminate. }
    apply X. discriminate. }
  rewrite E. unfold g. cbn [snd]. set (col := last (c1 :: cols) []).
  assert (IC : In col (c0 :: c1 :: cols)).
  { right. unfold col. assert (X : forall (l : list (list (Q * Q))), l <> [] -> In (last l []) l).
    { induction l as [|x l IH]; intros N; [contradiction|]. destruct l as [|y l]; [left; reflexivity|]. right. apply IH. discriminate. } apply X. discriminate. }
  destruct (H col IC) as [LC MC]. assert (NC : col <> []) by (intro X; rewrite X in LC; destruct pp; [contradiction|discriminate]).
  assert (NM : map snd col <> []) by (destruct col; [contradiction|discriminate]).
  assert (NB : combine pp (map snd col) <> []) by (destruct pp; [contradiction|]; destruct col; [contradiction|discriminate]).
  set (lo := qmin (map snd col)).
  assert (ML : forall l x, In x l -> qmin l <= x).
  { induction l as [|a l IH]; intros x [].
    - subst a. destruct l; [apply Qle_refl|apply Q.le_min_l].
    - destruct l; [destruct H0|]. eapply Qle_trans; [apply Q.le_min_r|]. apply IH; auto. }
  destruct (interp_between (combine pp (map snd col)) p lo (last (map snd col) 0) NB (combine_ordered _ _ ND)) as [_ U].
  { intros q Hq. split; [|apply (combine_last pp); auto; rewrite map_length; auto]. unfold lo. apply ML. destruct q as [a b]. apply in_combine_r in Hq. auto. }
  eapply Qle_trans; [exact U|]. change 0 with (snd (0, 0)) at 1. rewrite last_map by auto.
  apply qmax_ge. exact (in_map (fun col => snd (last col (0, 0))) _ _ IC).
Qed.

(** ** One row *)
Definition no_row : mob_row := {| r_z := 0; r_p := None; r_pmax := 0; r_m := None; r_mmax := 0 |}.

(** [r] reports the springs [c] and [cols] of a point with displacement [x] and rotation [t] *)
Definition reports (r : mob_row) (c : list (Q * Q)) (cols : list (list (Q * Q))) (x t : Q) : Prop :=
  exists p m, r_p r = Some p /\ r_m r = Some m /\
  (regular c -> on_curve c (Qabs x) p /\ 0 <= p /\ p <= r_pmax r /\ r_pmax r == snd (point c (length c - 1))) /\
  (absent c -> p == 0 /\ r_pmax r == 0) /\
  (family (map snd c) cols -> ~ qsum (map (fun col => fst (point col 0)) cols) == 0 ->
   exists s q, family_at s (map snd c) cols q /\ Qabs s == p /\ (0 <= x -> s == p) /\ (x <= 0 -> s == - p) /\
     (strict q -> hardening q -> on_curve q (Qabs t) m /\ 0 <= m /\ m <= r_mmax r)) /\
  (qsum (map (fun col => fst (point col 0)) cols) == 0 -> m == 0).

Lemma py_secant_nonneg : forall x c kp, py_spring x c Secant = Ok kp -> 0 <= kp.
Proof. intros. eapply py_nonneg; eauto. Qed.

Lemma row_reports : forall z py mt kp km x t zz,
  py_spring x py Secant = Ok kp -> mt_spring t (kp * x) (map snd py) mt Secant = Ok km -> zz = z ->
  reports {| r_z := z; r_p := Some (Qabs (x * kp)); r_pmax := qmax (map snd py); r_m := Some (Qabs (t * km)); r_mmax := moment_max mt |} py mt x t.
Proof.
  intros z py mt kp km x t zz P T _. pose proof (py_secant_nonneg x py kp P) as KP.
  exists (Qabs (x * kp)), (Qabs (t * km)). cbn [r_p r_m r_pmax r_mmax]. split; [reflexivity|]. split; [reflexivity|].
  split; [|split; [|split]].
  - intros RG. pose proof (regular_ne _ RG) as NE. destruct RG as (L & ST & HD & OR).
    destruct (py_secant x py L ST HD OR) as (k & p & A & B & C & D & E & F). assert (k = kp) by congruence. subst k.
    pose proof (abs_secant x kp p KP C) as EP. pose proof (hardening_max py NE HD) as HM.
    split; [apply (on_curve_eq py (Qabs x) (Qabs x) p); [reflexivity|symmetry; exact EP|exact B]|]. rewrite EP. split; [exact E|]. split; [rewrite HM; exact F|exact HM].
  - intros AB. destruct (absent_zero py x AB) as [A B]. assert (kp = 0) by congruence. subst kp. split; [|exact B].
    assert (X : x * 0 == 0) by ring. rewrite X. reflexivity.
  - intros FM NZ. exists (kp * x), (mt_curve (kp * x) (map snd py) mt). split; [apply family_curve; exact FM|].
    assert (EA : Qabs (kp * x) == Qabs (x * kp)) by (rewrite Qmult_comm; reflexivity). split; [exact EA|].
    split; [intros X; rewrite <- EA; rewrite Qabs_pos by (apply Qmult_le_0_compat; auto); reflexivity|].
    split; [intros X; rewrite <- EA; rewrite Qabs_neg; [ring|]; assert (Y : 0 <= kp * - x) by (apply Qmult_le_0_compat; lra); lra|].
    intros ST HD.
    assert (NB : Qeq_bool (qsum (map (fun col => fst (pt col 0)) mt)) 0 = false) by (apply Qeqb_false; exact NZ).
    destruct (mt_secant t (kp * x) (map snd py) mt (proj1 FM) ST HD NB) as (k & m & A & B & C & D & E & F).
    assert (k = km) by congruence. subst k. pose proof (abs_secant t km m D C) as EM.
    split; [apply (on_curve_eq _ (Qabs t) (Qabs t) m); [reflexivity|symmetry; exact EM|exact B]|]. rewrite EM. split; [exact E|].
    eapply Qle_trans; [exact F|]. apply curve_last_moment. exact FM.
  - intros Z. assert (Z' : Qeq_bool (qsum (map (fun col : curve => fst (pt col 0)) mt)) 0 = true) by (apply Qeqb_true; exact Z).
    unfold mt_spring in T. rewrite Z' in T. assert (km = 0) by congruence. subst km.
    assert (X : t * 0 == 0) by ring. rewrite X. reflexivity.
Qed.

Lemma table_row : forall M z py mt u rows, length z = S (w_n M) -> springs_mob M z py mt (Some u) = Ok rows ->
  length rows = (2 * w_n M)%nat /\
  forall e j, (e < w_n M)%nat -> (j < 2)%nat -> let i := spring_node (w_n M) e j in let r := nth (2 * e + j) rows no_row in
    r_z r = nth i z 0 /\ reports r (py e j) (mt e j) (node_deflection u i) (node_rotation u i).
Proof.
  intros M z py mt u rows LZ H. destruct (rows_inv M z py mt u rows H) as [L R]. split; [exact L|].
  intros e j He Hj. cbv zeta. destruct (R e j no_row He Hj) as (kp & km & P & T & E). rewrite E.
  cbv zeta in P, T. rewrite !spring_disp_node by auto. rewrite !spring_disp_node in P by auto. rewrite !spring_disp_node in T by auto. split.
  - cbn [r_z]. unfold spring_node. destruct (Nat.eqb_spec e (w_n M - 1)) as [E1|N1]; destruct (Nat.eqb_spec j 1) as [E2|N2]; cbn [andb].
    + subst e j. apply (last_spring_node _ (w_n M)); auto; lia.
    + apply (own_node _ (w_n M)); auto; intros [? ?]; auto.
    + apply (own_node _ (w_n M)); auto; intros [? ?]; auto.
    + apply (own_node _ (w_n M)); auto; intros [? ?]; auto.
  - exact (row_reports _ _ _ _ _ _ _ _ P T eq_refl).
Qed.

(** the table exists for every displacement when springs are regular or absent *)
Lemma collect_total : forall {A} n (f : nat -> res A), (forall e, (e < n)%nat -> exists a, f e = Ok a) -> exists l, collect n f = Ok l.
Proof.
  induction n as [|n IH]; intros f H; [exists []; reflexivity|]. cbn [collect].
  destruct (IH f) as [l ->]; [intros; apply H; lia|]. destruct (H n) as [a ->]; [lia|]. cbn [bind]. eauto.
Qed.

Lemma both_total : forall {A} (f : nat -> res A), (forall j, (j < 2)%nat -> exists a, f j = Ok a) -> exists p, both f = Ok p.
Proof. intros A f H. unfold both. destruct (H 0%nat) as [a ->]; [lia|]. cbn [bind]. destruct (H 1%nat) as [b ->]; [lia|]. cbn [bind]. eauto. Qed.

Lemma table_total : forall M z py mt u,
  (forall e j, (e < w_n M)%nat -> (j < 2)%nat -> regular (py e j) \/ absent (py e j)) ->
  (forall e j, (e < w_n M)%nat -> (j < 2)%nat -> qsum (map (fun col => fst (point col 0)) (mt e j)) == 0 \/
     family (map snd (py e j)) (mt e j) /\ forall s q, family_at s (map snd (py e j)) (mt e j) q -> strict q /\ hardening q) ->
  exists rows, springs_mob M z py mt (Some u) = Ok rows.
Proof.
  intros M z py mt u HP HM. unfold springs_mob.
  assert (PK : forall e j, (e < w_n M)%nat -> (j < 2)%nat -> forall x, exists k, py_spring x (py e j) Secant = Ok k).
  { intros e j He Hj x. destruct (HP e j He Hj) as [(L & ST & HD & OR)|AB]; [destruct (py_secant x _ L ST HD OR) as (k & p & A & _); eauto|].
    exists 0. apply absent_zero. exact AB. }
  destruct (collect_total (w_n M) (fun e => both (fun j => py_spring (spring_disp (w_n M) u 1 e j) (py e j) Secant))) as [lp EP].
  { intros e He. apply both_total. intros j Hj. apply PK; auto. }
  unfold py_stiffness. rewrite EP. cbn [bind].
  unfold mt_stiffness.
  match goal with |- context[collect (w_n M) ?f] => destruct (collect_total (w_n M) f) as [lm EM] end.
  { intros e He. apply both_total. intros j Hj. destruct (PK e j He Hj (spring_disp (w_n M) u 1 e j)) as [ks ->]. cbn [bind].
    destruct (HM e j He Hj) as [Z|[FM SH]].
    - assert (Z' : Qeq_bool (qsum (map (fun col : curve => fst (pt col 0)) (mt e j))) 0 = true) by (apply Qeqb_true; exact Z).
      exists 0. unfold mt_spring. rewrite Z'. reflexivity.
    - destruct (Qeq_bool (qsum (map (fun col => fst (pt col 0)) (mt e j))) 0) eqn:Z.
      + exists 0. unfold mt_spring. rewrite Z. reflexivity.
      + destruct (SH _ _ (family_curve (ks * spring_disp (w_n M) u 1 e j) _ _ FM)) as [ST HD].
        destruct (mt_secant (spring_disp (w_n M) u 2 e j) _ _ _ (proj1 FM) ST HD Z) as (k & m & A & _). eauto. }
  rewrite EM. cbn [bind]. eauto.
Qed.

(** moments that need lateral pressure are reported as zero where the pile moves in the negative
    direction *)
Lemma negative_row : forall M z py mt u rows e j, length z = S (w_n M) -> springs_mob M z py mt (Some u) = Ok rows -> (e < w_n M)%nat -> (j < 2)%nat ->
  let i := spring_node (w_n M) e j in let r := nth (2 * e + j) rows no_row in
  node_deflection u i < 0 -> (exists p, r_p r = Some p /\ 0 < p) ->
  (exists pp, map snd (py e j) = 0 :: pp /\ nondecreasing (0 :: pp)) ->
  (forall col, In col (mt e j) -> col <> [] /\ snd (point col 0) == 0) -> ordered ((0, 0) :: map (fun col => point col 0) (tl (mt e j))) ->
  exists m, r_m r = Some m /\ m == 0.
Proof.
  intros M z py mt u rows e j LZ H He Hj i r UN (p & EP & PP) (pp & PE & ND) HC OR.
  destruct (rows_inv M z py mt u rows H) as [_ R]. destruct (R e j no_row He Hj) as (kp & km & P & T & E). cbv zeta in P, T. fold r in E.
  rewrite E in *. cbn [r_p r_m] in *. rewrite !spring_disp_node in * by auto. fold i in P, T, EP. exists (Qabs (u (3 * i + 2)%nat * km)). split; [reflexivity|].
  pose proof (py_secant_nonneg _ _ _ P) as KP. unfold node_deflection in UN.
  assert (EQ : p = Qabs (u (3 * i + 1)%nat * kp)) by congruence.
  assert (K0 : 0 < kp).
  { destruct (Qlt_le_dec 0 kp) as [|LE]; auto. assert (Z : kp == 0) by lra.
    assert (X : u (3 * i + 1)%nat * kp == 0) by (rewrite Z; ring). rewrite EQ in PP. rewrite X in PP. discriminate PP. }
  assert (NG : kp * u (3 * i + 1)%nat < 0).
  { assert (X : 0 < kp * - u (3 * i + 1)%nat) by (apply Qmult_lt_0_compat; lra). lra. }
  rewrite PE in T. assert (KM : km == 0).
  { eapply mt_vanishes; [exact NG|exact ND| | |exact OR|exact T]; intros col IC; apply HC; exact IC. }
  assert (X : u (3 * i + 2)%nat * km == 0) by (rewrite KM; ring). rewrite X. reflexivity.
Qed.

(** ** Extremes *)
Lemma qmin_le : forall l x, In x l -> qmin l <= x.
Proof.
  induction l as [|a l IH]; intros x [].
  - subst a. destruct l; [apply Qle_refl|apply Q.le_min_l].
  - destruct l; [destruct H|]. eapply Qle_trans; [apply Q.le_min_r|]. apply IH; auto.
Qed.

Lemma qmin_in : forall l, l <> [] -> exists x, In x l /\ qmin l == x.
Proof.
  induction l as [|a l IH]; intros NE; [contradiction|]. destruct l as [|b l]; [exists a; split; [left|]; reflexivity|].
  destruct (IH ltac:(discriminate)) as (x & IN & E). change (qmin (a :: b :: l)) with (Qmin a (qmin (b :: l))).
  destruct (Q.min_spec a (qmin (b :: l))) as [[_ X]|[_ X]]; [exists a; split; [left; reflexivity|exact X]|].
  exists x. split; [right; exact IN|rewrite X; exact E].
Qed.

Lemma round_to_bound : forall p q, Qabs (round_to p q - q) <= (1 # 2) / inject_Z (Zpos p).
Proof.
  intros p q. unfold round_to. set (P := inject_Z (Z.pos p)). assert (PP : 0 < P) by reflexivity. pose proof (rint_bound (q * P)) as H.
  assert (E : inject_Z (rint (q * P)) / P - q == (inject_Z (rint (q * P)) - q * P) * / P) by (field; lra).
  rewrite E, Qabs_Qmult. rewrite (Qabs_pos (/ P)) by (apply Qlt_le_weak, Qinv_lt_0_compat; auto).
  unfold Qdiv. apply Qmult_le_compat_r; [exact H|]. apply Qlt_le_weak, Qinv_lt_0_compat; auto.
Qed.

Lemma round_largest : forall p l, l <> [] -> largest l ((1 # 2) / inject_Z (Zpos p)) (round_to p (qmax l)).
Proof.
  intros p l NE. pose proof (round_to_bound p (qmax l)) as B. split.
  - destruct (qmax_in l NE) as (x & IN & E). exists x. split; auto. rewrite E in B at 2. exact B.
  - intros x IN. pose proof (qmax_ge l x IN) as G. apply Qabs_Qle_condition in B. lra.
Qed.

Lemma round_smallest : forall p l, l <> [] -> smallest l ((1 # 2) / inject_Z (Zpos p)) (round_to p (qmin l)).
Proof.
  intros p l NE. pose proof (round_to_bound p (qmin l)) as B. split.
  - destruct (qmin_in l NE) as (x & IN & E). exists x. split; auto. rewrite E in B at 2. exact B.
  - intros x IN. pose proof (qmin_le l x IN) as G. apply Qabs_Qle_condition in B. lra.
Qed.

(** ** Failed analyses *)
Lemma loop_nan : forall solve n build F U0 supports fuel iter d U K Rg last o, (o_d last = None -> o_Q last = None) ->
  loop solve n build F U0 supports fuel iter d U K Rg last = Ok o -> o_d o = None -> o_Q o = None.
Proof.
  intros solve n build F U0 supports. induction fuel as [|f IH]; intros iter d U K Rg last o HL H E; cbn [loop] in H.
  - assert (last = o) by congruence. subst. auto.
  - destruct (solve_equations solve n K Rg U supports) as [[u R]|]; [|apply (f_equal (fun r => match r with Ok a => o_Q a | Err _ => None end)) in H; cbn in H; auto].
    cbv zeta in H. destruct (build _ Secant) as [Ks|]; cbn [bind] in H; [|discriminate]. destruct (_ && _)%bool.
    + destruct (solve_equations solve n Ks F U0 supports) as [[V Rf]|]; [|discriminate].
      apply (f_equal (fun r => match r with Ok a => o_d a | Err _ => None end)) in H. cbn in H. congruence.
    + destruct (Nat.eqb _ 100).
      * apply (f_equal (fun r => match r with Ok a => o_Q a | Err _ => None end)) in H. cbn in H. auto.
      * destruct (build _ Tangent) as [Kt|]; cbn [bind] in H; [|discriminate]. eapply IH; [|exact H|exact E]. cbn. discriminate.
Qed.

Lemma winkler_nan : forall solve M F U0 r m o, winkler_model solve M F U0 r m = Ok o -> o_d o = None -> o_Q o = None.
Proof.
  intros solve M F U0 r m o H E. unfold winkler_model, winkler in H. destruct (build M zero Initial) as [K|]; cbn [bind] in H; [|discriminate].
  eapply loop_nan; [|exact H|exact E]. cbn. discriminate.
Qed.

Lemma failed_result : forall solve M z a F U0 r m o, winkler_model solve M F U0 r m = Ok o -> o_d o = None ->
  exists w, winkler_result solve M z (Some a) F U0 r m = Ok (Some w) /\ res_disp w = None /\ res_forces w = None /\
    (exists rows, res_mob w = Some rows /\ forall x, In x rows -> r_p x = None /\ r_m x = None) /\
    (exists h g, res_hb w = Some (None, h) /\ res_mb w = Some (None, g)) /\ res_reac w = [] /\ res_iter w = o_iter o.
Proof.
  intros solve M z a F U0 r m o H E. unfold winkler_result. rewrite H. cbn [bind]. unfold result_of. rewrite E. rewrite (winkler_nan _ _ _ _ _ _ _ H E).
  cbn. eexists. split; [reflexivity|]. cbn. split; [reflexivity|]. split; [reflexivity|]. split; [|split; [eauto|split; reflexivity]].
  eexists. split; [reflexivity|]. intros x Hx. apply in_map_iff in Hx. destruct Hx as ([e j] & <- & _). split; reflexivity.
Qed.

(** what a result of solve with soil is made of *)
Lemma solve_inv : forall solve M z a F U r w, solve_model solve M z (Some a) F U r = Ok (Some w) ->
  exists o, winkler_model solve M F U r 100 = Ok o /\ res_disp w = option_map (disp_rows z) (o_d o) /\
    res_forces w = option_map (fun v => structural_forces z (pile_internal_forces (S (w_n M)) (w_mech M) v) (map (w_L M) (seq 0 (w_n M)))) (o_d o) /\
    res_reac w = reac_table z (o_Q o) /\ res_iter w = o_iter o /\
    (exists rows, res_mob w = Some rows /\ springs_mob M z (a_py a) (a_mt a) (o_d o) = Ok rows).
Proof.
  intros solve M z a F U r w H. cbn [solve_model winkler_result] in H.
  destruct (winkler_model solve M F U r 100) as [o|] eqn:W; cbn [bind] in H; [|discriminate]. exists o. split; [reflexivity|].
  unfold result_of in H. destruct (springs_mob M z (a_py a) (a_mt a) (o_d o)) as [rows|] eqn:S1; cbn [bind] in H; [|discriminate].
  destruct (base_report _ (a_hb a)) as [h|]; cbn [bind] in H; [|discriminate]. destruct (base_report _ (a_mb a)) as [g|]; cbn [bind] in H; [|discriminate].
  injection H as <-. cbn. repeat (split; [reflexivity|]). exists rows. auto.
Qed.

Lemma disp_rows_length : forall z u, length (disp_rows z u) = length z.
Proof. intros. unfold disp_rows, node_rows. rewrite combine_length, map_length, seq_length. lia. Qed.

Lemma forces_nonempty : forall z q L, (2 <= length z)%nat -> q <> [] -> L <> [] -> structural_forces z q L <> [].
Proof.
  intros z q L HZ HQ HL. unfold structural_forces, repeat_inner.
  destruct q as [|q0 q]; [contradiction|]. destruct L as [|l0 L]; [contradiction|]. destruct z as [|a z]; [simpl in HZ; lia|].
  destruct (rev (a :: z)) as [|y t] eqn:E; [apply (f_equal (@length _)) in E; rewrite rev_length in E; discriminate|].
  cbn [combine flat_map force_rows app]. discriminate.
Qed.
