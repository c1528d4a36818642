(** The calls made by create_springs for a pile in soil. *)
From Coq Require Import List Bool Arith ZArith QArith Qabs Qminmax Reals Qreals Permutation Lia Lqa Lra.
From Verif Require Import Base LinAlg BCModel PileModel PileSpec PileProofs PileProps MeshModel MeshSpec ConicSpec PisaModel StressModel StressSpec StressProofs StressProps ShaftProofs GridProofs BeamModel SolveModel SpringModel WinklerModel
  CreateModel CreateProofs CreateProps WholeModel WholeSpec WholeProofs AxialModel AxialSpec AxialProofs AxialProps LateralModel LateralSpec LateralProofs LateralProps MomentProofs StartProofs
  CapacityModel CapacitySpec CapacityProofs FullModel FullSpec FullProofs.
Import ListNotations.
Local Open Scope Q_scope.

(** ** The arguments of the spring functions *)
Section Calls.
Context {V : Type}.
Variables (l p : list section) (b : Q) (layers sd : list (@slayer V)) (st : setting) (x : list Q) (c : Q) (m : list Q).
Hypothesis F : fits l p b layers sd st x c m.
Hypothesis W : forall y, In y layers -> 10 < l_weight (s_layer y).
Hypothesis SG : stress (map s_layer layers) (ground st) (water st) (elems st) = Ok (sig_top st, sig_bottom st).
Hypothesis WA : water_at (requested p b (Some (map s_layer layers)) x) (water st).
Notation el i := (nth i (elems st) (0, 0)).
Notation ls := (map s_layer layers).

Lemma site_stress : forall i, (i < length (elems st))%nat -> fst (el i) <= ground st ->
  (exists s, nth i (sig_top st) None = Some s /\ s == overburden ls (water st) (fst (el i))) /\
  (exists s, nth i (sig_bottom st) None = Some s /\ s == overburden ls (water st) (snd (el i))) /\
  length (sig_bottom st) = length (elems st).
Proof using F SG WA.
  intros i Hi G. destruct F as (P & MP & B & TB & PL & ST & SB & BG & ND & X & C & MM & EM & GR).
  pose proof (Permutation_map s_layer PL) as PM. pose proof SG as S.
  destruct (C20_stress_is_overburden l p b ls (map s_layer sd) (ground st) (water st) x c m P MP B PM ST SB BG) as (above & e0 & below & tops & bots & EE & AB & CH & SS & F1 & F2); auto.
  { destruct sd; [congruence|discriminate]. }
  rewrite EM in S. assert (E : tops = sig_top st /\ bots = sig_bottom st) by (split; congruence). destruct E as [-> ->].
  assert (LE : length (elems st) = (length above + length (e0 :: below))%nat) by (rewrite EM, EE, app_length; reflexivity).
  assert (LA : (length above <= i)%nat).
  { destruct (le_lt_dec (length above) i) as [|L]; auto. exfalso. assert (I : In (el i) above). { rewrite EM, EE, app_nth1 by auto. apply nth_In; auto. }
    specialize (AB _ I). Lqa.lra. }
  assert (EN : el i = nth (i - length above) (e0 :: below) (0, 0)) by (rewrite EM, EE, app_nth2 by auto; reflexivity).
  assert (GEN : forall (f : Q * Q -> Q) sig, Forall2 nan_eq sig (map (fun _ => None) above ++ map (fun e => Some (f e)) (e0 :: below)) -> exists s, nth i sig None = Some s /\ s == f (el i)).
  { intros f sig FF. pose proof (Forall2_same_length _ _ _ _ _ FF) as LF. rewrite app_length, !map_length in LF.
    pose proof (Forall2_nth _ _ _ _ _ i None None FF ltac:(rewrite LF; rewrite LE in Hi; exact Hi)) as N.
    rewrite app_nth2 in N by (rewrite map_length; auto). rewrite map_length in N.
    rewrite (nth_indep (map (fun e => Some (f e)) (e0 :: below)) None (Some (f (0, 0)))) in N by (rewrite map_length; lia).
    rewrite (map_nth (fun e => Some (f e))) in N. rewrite <- EN in N. destruct (nth i sig None) as [s|]; [|contradiction]. exists s. split; auto. }
  split; [apply (GEN (fun e => overburden ls (water st) (fst e)) (sig_top st) F1)|]. split; [apply (GEN (fun e => overburden ls (water st) (snd e)) (sig_bottom st) F2)|].
  transitivity (length (map (fun _ => @None Q) above ++ map (fun e => Some (overburden ls (water st) (snd e))) (e0 :: below))); [exact (Forall2_same_length _ _ _ _ _ F2)|]. rewrite app_length, !map_length. symmetry. exact LE.
Qed.

Lemma site_element : forall i, (i < length (elems st))%nat -> b <= snd (el i) /\ snd (el i) < fst (el i).
Proof using F.
  intros i Hi. destruct F as (P & MP & B & TB & PL & ST & SB & BG & ND & X & C & MM & EM & GR).
  destruct (mesh_layers l p b layers sd (ground st) x c m P MP B PL ST SB BG ND X C MM GR) as (AP & NDu & NE & LT & EL).
  assert (IE : In (el i) (elements_of m)) by (rewrite EM; rewrite EM in Hi; apply nth_In; exact Hi). destruct (EL _ IE) as (A & B' & _). auto.
Qed.

Lemma site_work : forall sl i, In (sl, i) (work st layers) -> In sl layers /\ (i < length (elems st))%nat /\ l_bottom (s_layer sl) <= snd (el i) /\ fst (el i) <= l_top (s_layer sl) /\
  b <= snd (el i) /\ snd (el i) < fst (el i) /\ fst (el i) <= ground st.
Proof using F.
  intros sl i I. apply in_work in I. destruct I as (I & L & A & B). unfold elem in A, B. destruct (site_element i L) as [C D]. split; [auto|]. do 5 (split; [auto|]).
  destruct F as (_ & _ & _ & _ & PL & ST & _). destruct (stack_below sd (ground st) ST sl) as [T _]; [eapply Permutation_in; eauto|]. Lqa.lra.
Qed.

Definition end_of (i j : nat) : Q := if Nat.eqb j 0 then fst (el i) else snd (el i).

Lemma site_shaft : forall sl i j, In (sl, i) (work st layers) -> let a := shaft_args st (s_layer sl) i j in let z := end_of i j in
  (exists s, a_sig a = Some s /\ s == overburden ls (water st) z) /\ a_X a == ground st - z /\ a_height a = l_top (s_layer sl) - l_bottom (s_layer sl) /\
  a_depth a = l_top (s_layer sl) - z /\ a_wet a = Qle_bool z (water st) /\ l_bottom (s_layer sl) <= z /\ z <= l_top (s_layer sl) /\ b <= z /\ z <= ground st /\ l_bottom (s_layer sl) < l_top (s_layer sl).
Proof using F SG WA.
  intros sl i j I a z. destruct (site_work sl i I) as (IL & L & A & B & C & D & G). destruct (site_stress i L G) as ((s1 & S1 & Q1) & (s2 & S2 & Q2) & _).
  assert (ZZ : snd (el i) <= z /\ z <= fst (el i)) by (unfold z, end_of; destruct (Nat.eqb j 0); split; Lqa.lra). destruct ZZ as [Z1 Z2].
  split. { unfold a, z, shaft_args, pick, end_of. cbn [a_sig fst snd]. destruct (Nat.eqb j 0); eauto. }
  assert (PZ : pick j (el i) = z) by reflexivity.
  split. { unfold a, shaft_args. cbn [a_X]. rewrite PZ. rewrite Qabs_neg; Lqa.lra. }
  split; [reflexivity|]. split; [reflexivity|]. split; [reflexivity|]. repeat split; Lqa.lra.
Qed.

Lemma site_base : forall sl i, In (sl, i) (work st layers) -> tip_in st (s_layer sl) = true -> let a := base_args st (s_layer sl) i in
  (exists s, a_sig a = Some s /\ s == overburden ls (water st) b) /\ l_bottom (s_layer sl) <= b /\ b <= l_top (s_layer sl) /\ tip st = b /\ l_bottom (s_layer sl) < l_top (s_layer sl).
Proof using F SG WA W.
  intros sl i I T a. destruct (site_work sl i I) as (IL & L & A & B & C & D & G). pose proof F as (P & MP & BB & TB & PL & ST & SB & BG & ND & X & CC & MM & EM & GR).
  destruct (mesh_layers l p b layers sd (ground st) x c m P MP BB PL ST SB BG ND X CC MM GR) as (AP & NDu & NE & LT & EL).
  assert (LAST : forall A (l0 : list A) d, last l0 d = nth (length l0 - 1) l0 d).
  { intros A0 l0 d. induction l0 as [|y t IH]; [reflexivity|]. destruct t as [|y' t]; [reflexivity|]. cbn [length Nat.sub] in *. rewrite Nat.sub_0_r in *. exact IH. }
  set (n := (length (elems st) - 1)%nat). assert (LN : (n < length (elems st))%nat) by (unfold n; lia).
  assert (EN : last (elements_of m) (0, 0) = el n) by (unfold n; rewrite <- EM; apply LAST). rewrite EN in LT.
  assert (IE : In (el n) (elements_of m)) by (rewrite <- EM; apply nth_In; exact LN).
  assert (GN : fst (el n) <= ground st).
  { destruct (EL _ IE) as (_ & _ & [U|(s & Is & _ & U)]); [Lqa.lra|]. destruct (stack_below sd (ground st) ST s) as [Ts _]; [eapply Permutation_in; eauto|]. Lqa.lra. }
  destruct (site_stress n LN GN) as (_ & (s2 & S2 & Q2) & LS).
  split. { exists s2. split; [unfold a; cbn [base_args a_sig]; rewrite LAST, LS; exact S2|]. rewrite Q2.
    assert (WW : forall l0, In l0 ls -> 10 < l_weight l0) by (intros l0 I0; apply in_map_iff in I0; destruct I0 as (y0 & <- & I0); auto).
    apply Qle_antisym; apply C20_overburden_grows_with_depth; auto; rewrite LT; apply Qle_refl. }
  unfold tip_in in T. apply andb_prop in T. destruct T as [T1 T2]. apply Qle_bool_iff in T1, T2. rewrite TB in *. repeat split; auto. Lqa.lra.
Qed.

(** ** Every cell holds the result of one of the calls *)
Notation M := (create_springs st layers).
Definition from_shaft (f : @lateral V -> option (args -> V)) (g : @axial V -> option (args -> V)) (v : V) : Prop :=
  exists sl i j, In (sl, i) (work st layers) /\ (j < 2)%nat /\
    ((exists la h, s_lat sl = Some la /\ f la = Some h /\ v = h (shaft_args st (s_layer sl) i j)) \/ (exists ax h, s_ax sl = Some ax /\ g ax = Some h /\ v = h (shaft_args st (s_layer sl) i j))).
Definition from_base (f : @lateral V -> option (args -> V)) (g : @axial V -> option (args -> V)) (v : V) : Prop :=
  exists sl i, In (sl, i) (work st layers) /\ tip_in st (s_layer sl) = true /\
    ((exists la h, s_lat sl = Some la /\ f la = Some h /\ v = h (base_args st (s_layer sl) i)) \/ (exists ax h, s_ax sl = Some ax /\ g ax = Some h /\ v = h (base_args st (s_layer sl) i))).
Definition if_lat (b : bool) (f : args -> V) : option (args -> V) := if b then Some f else None.
Record filled (m : @made V) : Prop := {
  fd_py : forall e j v, m_py m e j = Some v -> from_shaft (fun la => if_lat (has_py la && distributed_lateral st) (f_py la)) (fun _ => None) v;
  fd_mt : forall e j v, m_mt m e j = Some v -> from_shaft (fun la => if_lat (has_mt la && distributed_moment st) (f_mt la)) (fun _ => None) v;
  fd_tz : forall e j v, m_tz m e j = Some v -> from_shaft (fun _ => None) (fun ax => if_lat (distributed_axial st) (f_tz ax)) v;
  fd_hb : forall v, m_hb m = Some v -> from_base (fun la => if_lat (has_hb la && base_shear st) (f_hb la)) (fun _ => None) v;
  fd_mb : forall v, m_mb m = Some v -> from_base (fun la => if_lat (has_mb la && base_moment st) (f_mb la)) (fun _ => None) v;
  fd_qz : forall v, m_qz m = Some v -> from_base (fun _ => None) (fun ax => if_lat (base_axial st) (f_qz ax)) v }.

Lemma put_some : forall f i (g : nat -> V) e j v, put f i g e j = Some v -> f e j = Some v \/ (e = i /\ (j < 2)%nat /\ v = g j).
Proof using.
  intros f i g e j v H. unfold put in H. destruct (Nat.eqb e i && (j <? 2)%nat) eqn:E; [|auto]. apply andb_prop in E. destruct E as [E1 E2]. apply Nat.eqb_eq in E1. apply Nat.ltb_lt in E2. right. split; [auto|]. split; [auto|congruence].
Qed.

Lemma visit_filled : forall li m, In li (work st layers) -> filled m -> filled (visit st li m).
Proof using.
  intros [sl i] m0 I H0. unfold visit.
  set (m1 := match s_ax sl with None => m0 | Some ax => _ end).
  assert (H1 : filled m1).
  { unfold m1. destruct (s_ax sl) as [ax|] eqn:AX; [|exact H0]. destruct H0 as [A1 A2 A3 A4 A5 A6]. constructor; cbn [m_py m_mt m_tz m_hb m_mb m_qz]; auto.
    - intros e j v E. destruct (distributed_axial st) eqn:D; [|apply (A3 e j v E)]. apply put_some in E. destruct E as [E|(-> & J & ->)]; [apply (A3 e j v E)|].
      exists sl, i, j. split; [auto|]. split; [auto|]. right. exists ax, (f_tz ax). split; [auto|]. split; [reflexivity|reflexivity].
    - intros v E. destruct (tip_in st (s_layer sl) && base_axial st) eqn:D; [|apply A6; exact E]. apply andb_prop in D. destruct D as [D1 D2].
      exists sl, i. split; [auto|]. split; [auto|]. right. exists ax, (f_qz ax). rewrite D2. split; [auto|]. split; [reflexivity|congruence]. }
  clearbody m1. destruct (s_lat sl) as [la|] eqn:LA; [|exact H1]. destruct H1 as [A1 A2 A3 A4 A5 A6]. constructor; cbn [m_py m_mt m_tz m_hb m_mb m_qz]; auto.
  - intros e j v E. destruct (has_py la && distributed_lateral st) eqn:D; [|apply (A1 e j v E)]. apply put_some in E. destruct E as [E|(-> & J & ->)]; [apply (A1 e j v E)|].
    exists sl, i, j. split; [auto|]. split; [auto|]. left. exists la, (f_py la). split; [auto|]. rewrite D. split; reflexivity.
  - intros e j v E. destruct (has_mt la && distributed_moment st) eqn:D; [|apply (A2 e j v E)]. apply put_some in E. destruct E as [E|(-> & J & ->)]; [apply (A2 e j v E)|].
    exists sl, i, j. split; [auto|]. split; [auto|]. left. exists la, (f_mt la). split; [auto|]. rewrite D. split; reflexivity.
  - intros v E. destruct (tip_in st (s_layer sl) && (has_hb la && base_shear st)) eqn:D; [|apply A4; exact E]. apply andb_prop in D. destruct D as [D1 D2].
    exists sl, i. split; [auto|]. split; [auto|]. left. exists la, (f_hb la). rewrite D2. split; [auto|]. split; [reflexivity|congruence].
  - intros v E. destruct (tip_in st (s_layer sl) && (has_mb la && base_moment st)) eqn:D; [|apply A5; exact E]. apply andb_prop in D. destruct D as [D1 D2].
    exists sl, i. split; [auto|]. split; [auto|]. left. exists la, (f_mb la). rewrite D2. split; [auto|]. split; [reflexivity|congruence].
Qed.

Lemma springs_filled : filled M.
Proof using.
  unfold create_springs. assert (G : forall w m0, (forall li, In li w -> In li (work st layers)) -> filled m0 -> filled (fold_left (fun m li => visit st li m) w m0)).
  { induction w as [|li w IH]; intros m0 H H0; [exact H0|]. cbn [fold_left]. apply IH; [intros; apply H; right; auto|]. apply visit_filled; [apply H; left; auto|auto]. }
  apply G; [auto|]. constructor; cbn; intros; discriminate.
Qed.

(** ** The springs of an element come from its layer *)
Lemma layers_nodup : NoDup layers.
Proof using F.
  destruct F as (P & MP & B & TB & PL & ST & SB & BG & ND & X & C & MM & EM & GR).
  apply (mesh_layers l p b layers sd (ground st) x c m P MP B PL ST SB BG ND X C MM GR).
Qed.

Lemma shaft_owner : forall i j, (i < length (elems st))%nat -> (j < 2)%nat ->
  (ground st <= snd (el i) /\ m_py M i j = None /\ m_mt M i j = None /\ m_tz M i j = None) \/
  (snd (el i) < ground st /\ exists sl, (forall s, In s layers /\ l_bottom (s_layer s) <= snd (el i) /\ fst (el i) <= l_top (s_layer s) <-> s = sl) /\ In (sl, i) (work st layers) /\
     m_py M i j = match s_lat sl with Some la => if has_py la && distributed_lateral st then Some (f_py la (shaft_args st (s_layer sl) i j)) else None | None => None end /\
     m_mt M i j = match s_lat sl with Some la => if has_mt la && distributed_moment st then Some (f_mt la (shaft_args st (s_layer sl) i j)) else None | None => None end /\
     m_tz M i j = match s_ax sl with Some ax => if distributed_axial st then Some (f_tz ax (shaft_args st (s_layer sl) i j)) else None | None => None end).
Proof using F.
  intros i j Hi Hj. pose proof F as (P & MP & B & TB & PL & ST & SB & BG & ND & X & C & MM & EM & G). set (e := el i).
  destruct (mesh_layers l p b layers sd (ground st) x c m P MP B PL ST SB BG ND X C MM G) as (AP & NDu & NE & LT & EL).
  assert (IE : In e (elements_of m)) by (unfold e; rewrite EM; rewrite EM in Hi; apply nth_In; exact Hi).
  assert (TOPS : forall s, In s layers -> l_top (s_layer s) <= ground st) by (intros s I; apply (stack_below sd (ground st) ST s); eapply Permutation_in; eauto).
  destruct (EL e IE) as (A1 & A2 & [A3|(sl & I & A4 & A5)]).
  - left. split; [exact A3|]. apply no_layer; auto. intros s I (_ & U). specialize (TOPS s I). unfold elem in U. fold e in U. Lqa.lra.
  - right. specialize (TOPS sl I). split; [Lqa.lra|]. exists sl.
    assert (H : holds st sl i) by (split; [exact Hi|]; split; [exact A2|split; [exact A4|exact A5]]).
    split; [|split].
    + intros s. split; [|intros ->; auto]. intros (Is & U & W0). apply (owner_unique st layers sl s i AP I H). apply in_work. auto.
    + apply in_work. auto.
    + apply (shaft_springs st layers sl i j AP I H Hj).
Qed.

Lemma base_owner : let n := (length (elems st) - 1)%nat in let e := last (elems st) (0, 0) in e = el n /\
  exists sl, (forall s, In s layers /\ l_bottom (s_layer s) <= snd e /\ fst e <= l_top (s_layer s) <-> s = sl) /\ In (sl, n) (work st layers) /\ tip_in st (s_layer sl) = true /\
      m_hb M = match s_lat sl with Some la => if has_hb la && base_shear st then Some (f_hb la (base_args st (s_layer sl) n)) else None | None => None end /\
      m_mb M = match s_lat sl with Some la => if has_mb la && base_moment st then Some (f_mb la (base_args st (s_layer sl) n)) else None | None => None end /\
      m_qz M = match s_ax sl with Some ax => if base_axial st then Some (f_qz ax (base_args st (s_layer sl) n)) else None | None => None end.
Proof using F.
  intros n e. pose proof F as (P & MP & B & TB & PL & ST & SB & BG & ND & X & C & MM & EM & G).
  destruct (mesh_layers l p b layers sd (ground st) x c m P MP B PL ST SB BG ND X C MM G) as (AP & NDu & NE & LT & EL).
  assert (LEN : length (elems st) = S n). { unfold n. rewrite EM. destruct (elements_of m); [congruence|cbn; lia]. }
  assert (EN : nth n (elems st) (0, 0) = e).
  { unfold e, n. clear. induction (elems st) as [|y t IH]; [reflexivity|]. destruct t as [|y' t]; [reflexivity|]. cbn [length Nat.sub] in *. rewrite Nat.sub_0_r in *. exact IH. }
  assert (TE : snd e == tip st). { unfold e. rewrite EM, TB. exact LT. }
  assert (IN : forall i, (i <= n)%nat -> In (nth i (elems st) (0,0)) (elements_of m)) by (intros i Hi; rewrite EM; apply nth_In; rewrite <- EM; lia).
  split; [congruence|].
  destruct (EL e) as (A1 & A2 & [A3|(sl & I & A4 & A5)]); [rewrite <- EN; apply IN; lia| |].
  { exfalso. rewrite TB in TE. Lqa.lra. }
  exists sl. assert (H : holds st sl n) by (unfold holds, elem; rewrite EN; split; [lia|auto]).
  assert (AB : forall i, (i <= n)%nat -> snd (elem st i) < fst (elem st i) /\ tip st <= snd (elem st i)).
  { intros i Hi. unfold elem. destruct (EL _ (IN i Hi)) as (U1 & U2 & _). rewrite TB. auto. }
  assert (TN : snd (elem st n) == tip st) by (unfold elem; rewrite EN; exact TE).
  split; [|split; [|split]].
  - intros s. split; [|intros ->; auto]. intros (Is & U & W0). apply (owner_unique st layers sl s n AP I H). apply in_work. unfold elem. rewrite EN. split; [exact Is|]. split; [lia|auto].
  - apply in_work. unfold elem. rewrite EN. split; [exact I|]. split; [lia|auto].
  - exact (holds_tip st n TN sl H).
  - destruct (base_springs st layers n LEN TN AB sl NDu AP I H) as (H1 & H2 & H3).
    unfold writes_hb in H1. unfold writes_mb in H2. unfold writes_qz in H3. rewrite (holds_tip st n TN sl H) in *. auto.
Qed.
End Calls.
