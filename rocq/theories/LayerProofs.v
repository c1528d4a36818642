(** The model of a pile in soil: the same in whatever layers the soil is described. *)
From Coq Require Import List Bool Arith ZArith QArith Qabs Reals Qreals Permutation Lia FunctionalExtensionality Lqa Lra.
From Verif Require Import Base PileModel PileSpec MeshModel MeshSpec MeshProofs StressModel StressSpec StressProofs CreateModel CreateProofs
  AxialModel LateralModel CapacityModel FullModel SiteProofs SplitSpec SplitProofs.
Import ListNotations.
Local Open Scope Q_scope.
Notation no_error := SiteProofs.no_error.

Lemma site_facts : forall sections gr bot ys x c p b m V (f : soil_layer -> @slayer V), placed sections gr bot ys x c p b -> (forall y, s_layer (f y) = y_layer y) ->
  mesh p b (Some (map y_layer ys)) x c = Some m ->
  apart (map f ys) /\ NoDup (map f ys) /\ elements_of m <> [] /\ snd (last (elements_of m) (0, 0)) == b /\
  (forall e, In e (elements_of m) -> b <= snd e /\ snd e < fst e /\ (gr <= snd e \/ exists y, In y ys /\ l_bottom (y_layer y) <= snd e /\ fst e <= l_top (y_layer y))) /\
  (forall y, In y ys -> l_top (y_layer y) <= gr /\ l_bottom (y_layer y) < l_top (y_layer y)).
Proof.
  intros sections gr bot ys x c p b m V f [P1 P2 P3 P4 (d & PD & ES & SB) P6 P7 P8 P9] F MM.
  assert (EQ : map s_layer (map f ys) = map y_layer ys) by (rewrite map_map; apply map_ext; exact F).
  assert (PD' := PD). rewrite <- EQ in PD'. destruct (Permutation_map_inv s_layer (map f ys) (Permutation_sym PD')) as (sd & -> & PS).
  assert (ND : sd <> []) by (intros ->; cbn in SB; Lqa.lra).
  destruct (mesh_layers sections p b (map f ys) sd gr x c m P1 P2 P3 PS ES ltac:(Lqa.lra) P7 ND P8 P4 ltac:(rewrite EQ; exact MM) ltac:(rewrite EQ; exact P9)) as (A1 & A2 & A3 & A4 & A5).
  do 4 (split; [assumption|]). split.
  - intros e I. destruct (A5 e I) as (U1 & U2 & U3). do 2 (split; [assumption|]). destruct U3 as [U3|(sl & J & K1 & K2)]; [left; exact U3|right].
    apply in_map_iff in J. destruct J as (y & <- & J). rewrite F in K1, K2. eauto.
  - intros y I. destruct (stack_below sd gr ES (f y)) as [B1 B2]; [eapply Permutation_in; [exact PS|apply in_map; exact I]|]. rewrite F in B1, B2. auto.
Qed.

Lemma first_error_none : forall l, first_error l = None -> forall v, In v l -> exists r, v = Ok r.
Proof. induction l as [|[r|e] t IH]; intros E v I; [contradiction| |discriminate]. destruct I as [<-|I]; eauto. Qed.

Lemma accept_comp : forall len c b s s', s == s' -> accept_model len c b (Some s) = accept_model len c b (Some s').
Proof. intros len c b s s' E. unfold accept_model. assert (B : Qltb b s = Qltb b s') by (unfold Qltb; rewrite E; reflexivity). rewrite B. reflexivity. Qed.

Section Pair.
Variables (rnd : R -> Q) (ch ch' : chance) (sort : list (Q * section) -> list (Q * section)) (o : options) (sections : list section) (gr bot wt : Q) (ys ys' : list soil_layer)
  (x x' : list Q) (c : Q) (p : list section) (b : Q).
Hypothesis PL : placed sections gr bot ys x c p b.
Hypothesis PL' : placed sections gr bot ys' x' c p b.
Hypothesis SR : same_requests p b ys x ys' x'.
Hypothesis SS : same_soil ys ys'.
Hypothesis LU : same_luck ys ys' ch ch'.
Notation ls := (map y_layer ys).
Notation ls' := (map y_layer ys').

Lemma both_meshes : exists m m', mesh p b (Some ls) x c = Some m /\ mesh p b (Some ls') x' c = Some m' /\ Forall2 Qeq m m'.
Proof using PL PL' SR.
  assert (C : 0 < c) by (pose proof (pl_c _ _ _ _ _ _ _ _ PL); Lqa.lra).
  destruct (mesh_exists p b (Some ls) x c C) as [m M]. destruct (mesh_exists p b (Some ls') x' c C) as [m' M']. exists m, m'. split; [exact M|]. split; [exact M'|].
  apply (mesh_comp p b (Some ls) (Some ls') x x' c m m'); auto.
  assert (RB : forall s xx, requested p b s xx b). { intros s xx. left. destruct (pile_bottom_in p b (pl_bottom _ _ _ _ _ _ _ _ PL)) as (k & I & <-). exists k. split; [exact I|right; reflexivity]. }
  assert (RE : forall s xx y, contains (primary p b s xx) y <-> requested p b s xx y).
  { intros s xx y. rewrite primary_requested. split; [|auto]. intros [H|[E _]]; [exact H|]. destruct (RB s xx) as [(k & I & H)|[(l & k & H1 & H2 & H3 & H4)|(k & I & H)]].
    - left. exists k. rewrite E. auto.
    - right. left. exists l, k. rewrite E. auto.
    - right. right. exists k. split; [exact I|]. rewrite E. exact H. }
  intros z. rewrite !RE. apply SR.
Qed.

Lemma bottoms : profile_bottom gr ls == profile_bottom gr ls'.
Proof using PL PL'.
  destruct (pl_layers _ _ _ _ _ _ _ _ PL) as (d & PD & ES & SB). destruct (pl_layers _ _ _ _ _ _ _ _ PL') as (d' & PD' & ES' & SB').
  rewrite (stack_depth gr ls d PD ES), (stack_depth gr ls' d' PD' ES'), SB, SB'. reflexivity.
Qed.

Lemma both_hold_overlap : forall (l l' : layer) (e : Q * Q), snd e < fst e -> l_bottom l <= snd e -> fst e <= l_top l -> l_bottom l' <= snd e -> fst e <= l_top l' -> overlap l l'.
Proof using. intros l l' e H A B C D. exists ((fst e + snd e) / 2). assert (E : (fst e + snd e) / 2 == (fst e + snd e) * (1 # 2)) by field. rewrite E. repeat split; Lqa.lra. Qed.

Section Meshes.
Variables (m m' : list Q).
Hypothesis MM : mesh p b (Some ls) x c = Some m.
Hypothesis MM' : mesh p b (Some ls') x' c = Some m'.
Hypothesis EE : elements_of m = elements_of m'.

Lemma weights_same : forall e, In e (elements_of m) -> nan_eq (elem_weight ls wt e) (elem_weight ls' wt e).
Proof using PL PL' SS MM MM' EE.
  intros e I. pose (f := fun y : soil_layer => {| s_layer := y_layer y; s_lat := None; s_ax := None |} : @slayer unit).
  destruct (site_facts sections gr bot ys x c p b m unit f PL (fun y => eq_refl) MM) as (_ & _ & _ & _ & F & T).
  destruct (site_facts sections gr bot ys' x' c p b m' unit f PL' (fun y => eq_refl) MM') as (_ & _ & _ & _ & F' & T').
  destruct (pl_layers _ _ _ _ _ _ _ _ PL) as (d & PD & ES & SB). destruct (pl_layers _ _ _ _ _ _ _ _ PL') as (d' & PD' & ES' & SB').
  destruct (F e I) as (U1 & U2 & U3). rewrite EE in I. destruct (F' e I) as (_ & _ & U3').
  assert (AB : gr <= snd e -> nan_eq (elem_weight ls wt e) (elem_weight ls' wt e)).
  { intros G. rewrite (elem_weight_above ls d gr wt e PD ES), (elem_weight_above ls' d' gr wt e PD' ES') by Lqa.lra. exact Logic.I. }
  destruct U3 as [G|(y & J & K1 & K2)]; [auto|]. destruct U3' as [G|(y' & J' & K1' & K2')]; [auto|].
  rewrite (elem_weight_in ls d gr wt (y_layer y) e PD ES), (elem_weight_in ls' d' gr wt (y_layer y') e PD' ES') by
    first [Lqa.lra | eapply Permutation_in; [eassumption|apply in_map; assumption]].
  destruct (SS y y' J J') as (W & _); [eapply both_hold_overlap; eauto|]. cbn [nan_eq]. destruct (Qle_bool (fst e) wt); rewrite W; reflexivity.
Qed.

Lemma stress_pair : match stress ls gr wt (elements_of m), stress ls' gr wt (elements_of m') with
  | Ok sg, Ok sg' => Forall2 nan_eq (fst sg) (fst sg') /\ Forall2 nan_eq (snd sg) (snd sg') | Err e, Err e' => e = e' | _, _ => False end.
Proof using PL PL' SS MM MM' EE. rewrite <- EE. apply stress_comp. exact weights_same. Qed.

Variables (sg sg' : list nanQ * list nanQ) (ta fp : Q).
Hypothesis SG : Forall2 nan_eq (fst sg) (fst sg') /\ Forall2 nan_eq (snd sg) (snd sg').
Notation st := (setting_of o p b (sort (data_rows p)) gr wt ls m sg).
Notation st' := (setting_of o p b (sort (data_rows p)) gr wt ls' m' sg').
Notation layers := (map (slayer_of rnd ch ta fp) ys).
Notation layers' := (map (slayer_of rnd ch' ta fp) ys').

Lemma shaft_call : forall l l' i j, same_call (shaft_args st l i j) (shaft_args st' l' i j).
Proof using SG EE.
  intros l l' i j. destruct SG as [S1 S2]. unfold same_call, shaft_args, setting_of. cbn [a_sig a_X a_D a_L a_wet a_perim a_perim_in sig_top sig_bottom elems width outer water ground tip]. rewrite <- EE.
  split; [|repeat split; reflexivity]. unfold pick. cbn [fst snd]. destruct (Nat.eqb j 0); apply nth_comp; assumption.
Qed.
Lemma base_call_same : forall l l' i, same_call (base_args st l i) (base_args st' l' i).
Proof using SG EE PL PL'.
  intros l l' i. destruct SG as [S1 S2]. unfold same_call, base_args, setting_of. cbn [a_sig a_X a_D a_L a_wet a_perim a_perim_in sig_top sig_bottom elems width outer water ground tip soil_bottom]. rewrite <- EE.
  split; [apply last_comp; assumption|]. split; [rewrite bottoms; reflexivity|]. repeat split; reflexivity.
Qed.

(** Two layers with element [i], at an elevation of both *)
Lemma pair_shaft : forall y y' i j, In y ys -> In y' ys' -> (i < length (elements_of m))%nat -> (j < 2)%nat -> let e := nth i (elements_of m) (0, 0) in
  snd e < fst e -> l_bottom (y_layer y) <= snd e -> fst e <= l_top (y_layer y) -> l_bottom (y_layer y') <= snd e -> fst e <= l_top (y_layer y') ->
  let a := shaft_args st (y_layer y) i j in let a' := shaft_args st' (y_layer y') i j in
  (forall md md', y_lat y = Some md -> y_lat y' = Some md' -> same_lateral (y_layer y) (y_layer y') md md' /\
     f_py (lateral_of rnd ch md) a = f_py (lateral_of rnd ch' md') a' /\ f_mt (lateral_of rnd ch md) a = f_mt (lateral_of rnd ch' md') a') /\
  (forall md md', y_ax y = Some md -> y_ax y' = Some md' -> f_tz (axial_of rnd ch ta fp md) a = f_tz (axial_of rnd ch' ta fp md') a').
Proof using SS LU SG EE.
  intros y y' i j I I' Hi Hj e P A B A' B' a a'. assert (OV : overlap (y_layer y) (y_layer y')) by (eapply both_hold_overlap; eauto).
  destruct (SS y y' I I' OV) as (_ & SL & SA). pose (z := pick j e).
  assert (SH : shared (y_layer y) (y_layer y') z) by (unfold shared, z, pick; destruct (Nat.eqb j 0); repeat split; Lqa.lra).
  assert (HA : a_height a = l_top (y_layer y) - l_bottom (y_layer y) /\ a_depth a = l_top (y_layer y) - z) by (split; reflexivity).
  assert (HA' : a_height a' = l_top (y_layer y') - l_bottom (y_layer y') /\ a_depth a' = l_top (y_layer y') - z) by (unfold a', shaft_args, z, e; cbn [a_height a_depth elems setting_of]; rewrite EE; split; reflexivity).
  pose proof (shaft_call (y_layer y) (y_layer y') i j) as SC. fold a a' in SC.
  destruct (LU y y' a a' I I' OV SC) as (L1 & L2); [rewrite (proj1 HA); reflexivity|rewrite (proj1 HA'); reflexivity|rewrite (proj2 HA), (proj2 HA'); Lqa.lra|].
  split.
  - intros md md' E E'. rewrite E, E' in SL. cbn [both_or_none] in SL. split; [exact SL|]. destruct (L1 md md' E E') as [C1 C2].
    destruct (lateral_calls rnd _ _ z a a' SH ltac:(Lqa.lra) ltac:(Lqa.lra) SC HA HA' ch ch' md md' SL C1 C2) as (R1 & R2 & _). auto.
  - intros md md' E E'. rewrite E, E' in SA. cbn [both_or_none] in SA. destruct (L2 md md' E E') as [C1 C2]. unfold axial_of. cbn [f_tz].
    rewrite (tz_same _ _ z a a' SH ltac:(Lqa.lra) ltac:(Lqa.lra) SC HA HA' (c_tz ch) (c_tz ch') md md' SA C1). reflexivity.
Qed.
Lemma pair_base : forall y y' i, In y ys -> In y' ys' -> overlap (y_layer y) (y_layer y') -> l_bottom (y_layer y) <= b <= l_top (y_layer y) -> l_bottom (y_layer y') <= b <= l_top (y_layer y') ->
  let a := base_args st (y_layer y) i in let a' := base_args st' (y_layer y') i in
  (forall md md', y_lat y = Some md -> y_lat y' = Some md' -> same_lateral (y_layer y) (y_layer y') md md' /\
     f_hb (lateral_of rnd ch md) a = f_hb (lateral_of rnd ch' md') a' /\ f_mb (lateral_of rnd ch md) a = f_mb (lateral_of rnd ch' md') a') /\
  (forall md md', y_ax y = Some md -> y_ax y' = Some md' -> f_qz (axial_of rnd ch ta fp md) a = f_qz (axial_of rnd ch' ta fp md') a').
Proof using SS LU SG EE PL PL'.
  intros y y' i I I' OV [A B] [A' B'] a a'.
  destruct (SS y y' I I' OV) as (_ & SL & SA).
  assert (SH : shared (y_layer y) (y_layer y') b) by (repeat split; assumption).
  assert (HA : a_height a = l_top (y_layer y) - l_bottom (y_layer y) /\ a_depth a = l_top (y_layer y) - b) by (split; reflexivity).
  assert (HA' : a_height a' = l_top (y_layer y') - l_bottom (y_layer y') /\ a_depth a' = l_top (y_layer y') - b) by (split; reflexivity).
  pose proof (base_call_same (y_layer y) (y_layer y') i) as SC. fold a a' in SC.
  destruct (LU y y' a a' I I' OV SC) as (L1 & L2); [rewrite (proj1 HA); reflexivity|rewrite (proj1 HA'); reflexivity|rewrite (proj2 HA), (proj2 HA'); Lqa.lra|].
  destruct OV as (zz & O1 & O2 & O3 & O4).
  split.
  - intros md md' E E'. rewrite E, E' in SL. cbn [both_or_none] in SL. split; [exact SL|]. destruct (L1 md md' E E') as [C1 C2].
    destruct (lateral_calls rnd _ _ b a a' SH ltac:(Lqa.lra) ltac:(Lqa.lra) SC HA HA' ch ch' md md' SL C1 C2) as (_ & _ & R1 & R2). auto.
  - intros md md' E E'. rewrite E, E' in SA. cbn [both_or_none] in SA. destruct (L2 md md' E E') as [C1 C2]. unfold axial_of. cbn [f_qz].
    rewrite (qz_same _ _ b a a' SH ltac:(Lqa.lra) ltac:(Lqa.lra) SC HA HA' (c_qz ch) (c_qz ch') ta fp md md' SA C2). reflexivity.
Qed.

Lemma pair_kinds : forall y y', In y ys -> In y' ys' -> overlap (y_layer y) (y_layer y') -> (y_lat y = None <-> y_lat y' = None) /\ (y_ax y = None <-> y_ax y' = None).
Proof using SS. intros y y' I I' OV. destruct (SS y y' I I' OV) as (_ & SL & SA). destruct (y_lat y), (y_lat y'), (y_ax y), (y_ax y'); cbn [both_or_none] in *; try contradiction; split; split; congruence. Qed.

Lemma springs_same : create_springs st layers = create_springs st' layers'.
Proof using All.
  destruct (site_facts sections gr bot ys x c p b m _ (slayer_of rnd ch ta fp) PL (fun y => eq_refl) MM) as (A1 & A2 & A3 & A4 & A5 & A6).
  destruct (site_facts sections gr bot ys' x' c p b m' _ (slayer_of rnd ch' ta fp) PL' (fun y => eq_refl) MM') as (B1 & B2 & B3 & B4 & B5 & B6).
  pose (n := (length (elements_of m) - 1)%nat).
  assert (LEN : length (elems st) = S n). { cbn [elems setting_of]. unfold n. destruct (elements_of m); [congruence|cbn; lia]. }
  assert (EN : elem st n = last (elements_of m) (0, 0)).
  { unfold elem, n. cbn [elems setting_of]. clear. induction (elements_of m) as [|y t IH]; [reflexivity|]. destruct t as [|y' t]; [reflexivity|]. cbn [length Nat.sub] in *. rewrite Nat.sub_0_r in *. exact IH. }
  assert (IN : forall i, (i <= n)%nat -> In (elem st i) (elements_of m)) by (intros i Hi; unfold elem; cbn [elems setting_of]; apply nth_In; cbn [elems setting_of] in LEN; lia).
  assert (AG1 : forall y y' i, In y ys -> In y' ys' -> holds st (slayer_of rnd ch ta fp y) i -> holds st (slayer_of rnd ch' ta fp y') i -> overlap (y_layer y) (y_layer y')).
  { intros y y' i _ _ (_ & H1 & H2 & H3) (_ & _ & H4 & H5). eapply both_hold_overlap; eauto. }
  apply (created_same st st' layers layers' (eq_sym EE) ltac:(repeat split; reflexivity) n b gr LEN ltac:(split; reflexivity)).
  - rewrite EN. exact A4.
  - intros i Hi. destruct (A5 _ (IN i Hi)) as (U1 & U2 & _). auto.
  - exact (pl_tip _ _ _ _ _ _ _ _ PL).
  - split; intros s I; apply in_map_iff in I; destruct I as (y & <- & I); [apply A6|apply B6]; exact I.
  - intros i Hi. destruct (A5 _ (IN i Hi)) as (_ & _ & [U|(y & I & U)]); [left; exact U|right]. exists (slayer_of rnd ch ta fp y). split; [apply in_map; exact I|exact U].
  - intros i Hi. pose proof (IN i Hi) as J. rewrite EE in J. destruct (B5 _ J) as (_ & _ & [U|(y & I & U)]); [left; exact U|right]. exists (slayer_of rnd ch' ta fp y). split; [apply in_map; exact I|exact U].
  - auto.
  - auto.
  - intros i sl sl' I I' H H'. apply in_map_iff in I. destruct I as (y & <- & I). apply in_map_iff in I'. destruct I' as (y' & <- & I').
    pose proof (AG1 y y' i I I' H H') as OV. destruct (pair_kinds y y' I I' OV) as [K1 K2]. destruct H as (HL & H1 & H2 & H3), H' as (_ & _ & H4 & H5). cbn [s_layer slayer_of] in H2, H3, H4, H5.
    assert (PS := fun j Hj => pair_shaft y y' i j I I' HL Hj H1 H2 H3 H4 H5). unfold agree, slayer_of. cbn [s_lat s_ax s_layer]. split.
    + destruct (y_lat y) as [md|] eqn:E, (y_lat y') as [md'|] eqn:E'; cbn [option_map both_or_none]; try exact Logic.I; try (exfalso; destruct K1 as [K1 K1']; (discriminate (K1 eq_refl) || discriminate (K1' eq_refl))).
      destruct (PS 0%nat ltac:(lia)) as (Q1 & _). destruct (Q1 md md' eq_refl eq_refl) as (SL & _). destruct (lateral_has rnd _ _ ch ch' md md' SL) as (Z1 & Z2 & _).
      split; [exact Z1|]. split; [exact Z2|]. intros j Hj. destruct (PS j Hj) as (Q2 & _). destruct (Q2 md md' eq_refl eq_refl) as (_ & R). exact R.
    + destruct (y_ax y) as [md|] eqn:E, (y_ax y') as [md'|] eqn:E'; cbn [option_map both_or_none]; try exact Logic.I; try (exfalso; destruct K2 as [K2 K2']; (discriminate (K2 eq_refl) || discriminate (K2' eq_refl))).
      intros j Hj. destruct (PS j Hj) as (_ & Q2). exact (Q2 md md' eq_refl eq_refl).
  - intros sl sl' I I' H H'. apply in_map_iff in I. destruct I as (y & <- & I). apply in_map_iff in I'. destruct I' as (y' & <- & I').
    pose proof (AG1 y y' n I I' H H') as OV. destruct (pair_kinds y y' I I' OV) as [K1 K2]. destruct H as (HL & H1 & H2 & H3), H' as (_ & _ & H4 & H5). cbn [s_layer slayer_of] in H2, H3, H4, H5.
    rewrite EN in *. assert (PS := pair_base y y' n I I' OV ltac:(split; Lqa.lra) ltac:(split; Lqa.lra)). destruct PS as [PS1 PS2]. unfold agree_base, slayer_of. cbn [s_lat s_ax s_layer]. split.
    + destruct (y_lat y) as [md|] eqn:E, (y_lat y') as [md'|] eqn:E'; cbn [option_map both_or_none]; try exact Logic.I; try (exfalso; destruct K1 as [K1 K1']; (discriminate (K1 eq_refl) || discriminate (K1' eq_refl))).
      destruct (PS1 md md' eq_refl eq_refl) as (SL & R1 & R2). destruct (lateral_has rnd _ _ ch ch' md md' SL) as (_ & _ & Z1 & Z2). auto.
    + destruct (y_ax y) as [md|] eqn:E, (y_ax y') as [md'|] eqn:E'; cbn [option_map both_or_none]; try exact Logic.I; try (exfalso; destruct K2 as [K2 K2']; (discriminate (K2 eq_refl) || discriminate (K2' eq_refl))).
      exact (PS2 md md' eq_refl eq_refl).
Qed.

(** Where every layer of the one is part of a layer of the other, the one makes no call that the other does not make *)
Lemma calls_kept : finer ys' ys -> forall v, In v (flat_map (calls_of st') (work st' layers')) -> In v (flat_map (calls_of st) (work st layers)).
Proof using PL PL' SS LU MM MM' EE SG.
  intros FN v I. apply in_flat_map in I. destruct I as ([sl' i] & IW & I). apply in_work in IW. destruct IW as (IL & Hi & H4 & H5). apply in_map_iff in IL. destruct IL as (y' & <- & I').
  destruct (FN y' I') as (y & IY & F1 & F2). change (elems st') with (elements_of m') in Hi. assert (Hi' := Hi). rewrite <- EE in Hi'.
  assert (EL : elem st' i = nth i (elements_of m) (0, 0)) by (unfold elem; cbn [elems setting_of]; rewrite EE; reflexivity). rewrite EL in H4, H5. cbn [s_layer slayer_of] in H4, H5.
  destruct (site_facts sections gr bot ys x c p b m _ (slayer_of rnd ch ta fp) PL (fun _ => eq_refl) MM) as (_ & _ & _ & _ & A5 & _).
  destruct (A5 _ (nth_In (elements_of m) (0, 0) Hi')) as (_ & H1 & _). assert (H2 : l_bottom (y_layer y) <= snd (nth i (elements_of m) (0, 0))) by Lqa.lra. assert (H3 : fst (nth i (elements_of m) (0, 0)) <= l_top (y_layer y)) by Lqa.lra.
  pose proof (both_hold_overlap _ _ _ H1 H2 H3 H4 H5) as OV. destruct (pair_kinds y y' IY I' OV) as [K1 K2].
  assert (PS := fun j Hj => pair_shaft y y' i j IY I' Hi' Hj H1 H2 H3 H4 H5).
  apply in_flat_map. exists (slayer_of rnd ch ta fp y, i). split; [apply in_work; split; [apply in_map; exact IY|]; split; [exact Hi'|]; split; assumption|].
  assert (TI : tip_in st' (y_layer y') = true -> tip_in st (y_layer y) = true /\ (l_bottom (y_layer y) <= b <= l_top (y_layer y)) /\ l_bottom (y_layer y') <= b <= l_top (y_layer y')).
  { unfold tip_in. cbn [tip setting_of]. rewrite !andb_true_iff, !Qle_bool_iff. intros [U V]. repeat split; Lqa.lra. }
  unfold calls_of, slayer_of in *. cbn [s_lat s_ax s_layer] in *. cbn [distributed_axial base_axial distributed_lateral distributed_moment base_shear base_moment setting_of] in *.
  apply in_app_or in I. apply in_or_app. destruct I as [I|I]; [left|right].
  - destruct (y_ax y') as [md'|] eqn:E'; [|contradiction]. destruct (y_ax y) as [md|] eqn:E; [|discriminate (proj1 K2 eq_refl)]. cbn [option_map] in *.
    apply in_app_or in I. apply in_or_app. destruct I as [I|I]; [left|right].
    + destruct (on_tz o); [|contradiction]. destruct (PS 0%nat ltac:(lia)) as (_ & Q0), (PS 1%nat ltac:(lia)) as (_ & Q1).
      rewrite (Q0 md md' eq_refl eq_refl), (Q1 md md' eq_refl eq_refl). exact I.
    + destruct (tip_in st' (y_layer y')) eqn:T; [|contradiction]. destruct (TI eq_refl) as (T1 & T2 & T3). rewrite T1. destruct (on_qz o); [|contradiction].
      destruct (pair_base y y' i IY I' OV T2 T3) as (_ & Q0). cbn [andb] in *. rewrite (Q0 md md' E E'). exact I.
  - destruct (y_lat y') as [md'|] eqn:E'; [|contradiction]. destruct (y_lat y) as [md|] eqn:E; [|discriminate (proj1 K1 eq_refl)]. cbn [option_map] in *.
    destruct (PS 0%nat ltac:(lia)) as (P0 & _), (PS 1%nat ltac:(lia)) as (P1 & _). destruct (P0 md md' eq_refl eq_refl) as (SL & P01 & P02), (P1 md md' eq_refl eq_refl) as (_ & P11 & P12).
    destruct (lateral_has rnd _ _ ch ch' md md' SL) as (Z1 & Z2 & Z3 & Z4). rewrite Z1, Z2, Z3, Z4.
    apply in_app_or in I. apply in_or_app. destruct I as [I|I]; [left|right].
    { destruct (_ && on_py o); [|contradiction]. rewrite P01, P11. exact I. }
    apply in_app_or in I. apply in_or_app. destruct I as [I|I]; [left|right].
    { destruct (_ && on_mt o); [|contradiction]. rewrite P02, P12. exact I. }
    destruct (tip_in st' (y_layer y')) eqn:T; [|cbn in I; contradiction]. destruct (TI eq_refl) as (T1 & T2 & T3). rewrite T1.
    destruct (pair_base y y' i IY I' OV T2 T3) as (Q0 & _). destruct (Q0 md md' E E') as (_ & R1 & R2). rewrite R1, R2. exact I.
Qed.
End Meshes.

Notation SETS := (setting_of o p b (sort (data_rows p)) gr wt).
Lemma pair_construct :
  (exists e, construct rnd ch sort o sections gr wt ys x c = Err e /\ construct rnd ch' sort o sections gr wt ys' x' c = Err e) \/
  exists m m' sg sg' ta fp, mesh p b (Some ls) x c = Some m /\ mesh p b (Some ls') x' c = Some m' /\ Forall2 Qeq m m' /\
    (Forall2 nan_eq (fst sg) (fst sg') /\ Forall2 nan_eq (snd sg) (snd sg')) /\
    construct rnd ch sort o sections gr wt ys x c = bind (make_springs (SETS ls m sg) (map (slayer_of rnd ch ta fp) ys)) (fun M => Ok (Some (mkBuilt p m (SETS ls m sg) M))) /\
    construct rnd ch' sort o sections gr wt ys' x' c = bind (make_springs (SETS ls' m' sg') (map (slayer_of rnd ch' ta fp) ys')) (fun M => Ok (Some (mkBuilt p m' (SETS ls' m' sg') M))).
Proof using PL PL' SR SS.
  destruct both_meshes as (m & m' & MM & MM' & FE). pose proof (stress_pair m m' MM MM' (elements_comp m m' FE)) as SP.
  unfold construct. rewrite (pl_pile _ _ _ _ _ _ _ _ PL). cbn [bind].
  destruct (pl_layers _ _ _ _ _ _ _ _ PL) as (d & PD & ES & SB). destruct (pl_layers _ _ _ _ _ _ _ _ PL') as (d' & PD' & ES' & SB').
  assert (ND : d <> []) by (intros ->; cbn in SB; pose proof (pl_deep _ _ _ _ _ _ _ _ PL); pose proof (pl_tip _ _ _ _ _ _ _ _ PL); Lqa.lra).
  assert (ND' : d' <> []) by (intros ->; cbn in SB'; pose proof (pl_deep _ _ _ _ _ _ _ _ PL); pose proof (pl_tip _ _ _ _ _ _ _ _ PL); Lqa.lra).
  rewrite (stack_profile gr ls d ND PD ES), (stack_profile gr ls' d' ND' PD' ES'). cbn [bind].
  destruct (pile_length p) as [len|e]; cbn [bind]; [|left; eauto]. rewrite (pl_bottom _ _ _ _ _ _ _ _ PL). cbn [bind].
  rewrite (accept_comp len c b _ _ bottoms). destruct (accept_model len c b _) as [u|e]; cbn [bind]; [|left; eauto]. rewrite MM, MM'.
  revert SP. destruct (stress ls gr wt (elements_of m)) as [sg|e], (stress ls' gr wt (elements_of m')) as [sg'|e']; intros SP; try contradiction; cbn [bind]; [|subst; left; eauto].
  destruct (tip_area p) as [ta|e]; cbn [bind]; [|left; eauto]. destruct (tip_footprint p) as [fp|e]; cbn [bind]; [|left; eauto].
  right. exists m, m', sg, sg', ta, fp. split; [reflexivity|]. split; [reflexivity|]. split; [exact FE|]. split; [exact SP|]. split; reflexivity.
Qed.

(** Models of the same soil have the same springs *)
Lemma same_model : forall B B', construct rnd ch sort o sections gr wt ys x c = Ok (Some B) -> construct rnd ch' sort o sections gr wt ys' x' c = Ok (Some B') ->
  b_pile B = b_pile B' /\ nodes_of (b_mesh B) = nodes_of (b_mesh B') /\ elements_of (b_mesh B) = elements_of (b_mesh B') /\ b_made B = b_made B'.
Proof using PL PL' SR SS LU.
  intros B B' C C'. destruct pair_construct as [(e & E & E')|(m & m' & sg & sg' & ta & fp & MM & MM' & FE & SG & E & E')]; [rewrite E in C; discriminate|].
  rewrite E in C. rewrite E' in C'. unfold make_springs in C, C'. pose proof (elements_comp m m' FE) as EE.
  destruct (first_error _) in C; [discriminate|]. destruct (first_error _) in C'; [discriminate|]. cbn [bind] in C, C'. injection C as <-. injection C' as <-. cbn [b_pile b_mesh b_made].
  split; [reflexivity|]. split; [apply nodes_comp; exact FE|]. split; [exact EE|]. exact (springs_same m m' MM MM' EE sg sg' ta fp SG).
Qed.

(** Dividing layers does not make the model fail *)
Lemma finer_model : finer ys' ys -> forall B, construct rnd ch sort o sections gr wt ys x c = Ok (Some B) -> exists B', construct rnd ch' sort o sections gr wt ys' x' c = Ok (Some B').
Proof using PL PL' SR SS LU.
  intros FN B C. destruct pair_construct as [(e & E & E')|(m & m' & sg & sg' & ta & fp & MM & MM' & FE & SG & E & E')]; [rewrite E in C; discriminate|].
  rewrite E in C. rewrite E'. unfold make_springs in *. pose proof (elements_comp m m' FE) as EE. destruct (first_error _) eqn:FR in C; [discriminate|].
  rewrite no_error; [cbn [bind]; eauto|]. intros v I. apply (first_error_none _ FR). exact (calls_kept m m' MM MM' EE sg sg' ta fp SG FN v I).
Qed.
End Pair.

(** ** Layers of one profile *)
Lemma stack_overlap : forall d g, exact_stack g d -> forall i j a a', nth_error d i = Some a -> nth_error d j = Some a' -> overlap a a' -> i = j.
Proof.
  intros d g ES. assert (H : forall i j a a', (i < j)%nat -> nth_error d i = Some a -> nth_error d j = Some a' -> ~ overlap a a').
  { revert g ES. induction d as [|y t IH]; intros g ES i j a a' L E E'; [destruct i; discriminate|]. cbn [exact_stack] in ES. destruct ES as (A & B & C). destruct j as [|j]; [lia|]. cbn in E'.
    destruct i as [|i]; [|cbn in E; apply (IH _ C i j); auto; lia]. cbn in E. injection E as <-. destruct (stack_tops t _ C j a' E') as [D _]. intros (z & O1 & O2 & O3 & O4). Lqa.lra. }
  intros i j a a' E E' OV. destruct (lt_eq_lt_dec i j) as [[L|L]|L]; auto; exfalso; [exact (H i j a a' L E E' OV)|].
  destruct OV as (z & O1 & O2 & O3 & O4). apply (H j i a' a L E' E). exists z. auto.
Qed.
Lemma overlap_sym : forall a a', overlap a a' -> overlap a' a. Proof. intros a a' (z & A & B & C & D). exists z. auto. Qed.
Lemma overlap_self : forall a, l_bottom a < l_top a -> overlap a a.
Proof. intros a H. exists ((l_top a + l_bottom a) / 2). assert (E : (l_top a + l_bottom a) / 2 == (l_top a + l_bottom a) * (1 # 2)) by field. rewrite E. repeat split; Lqa.lra. Qed.
Lemma stack_pos : forall d g, exact_stack g d -> forall a, In a d -> l_bottom a < l_top a.
Proof. induction d as [|y t IH]; intros g ES a I; [contradiction|]. cbn [exact_stack] in ES. destruct ES as (A & B & C). destruct I as [<-|I]; [exact B|exact (IH _ C a I)]. Qed.
Lemma stack_nodup : forall d g, exact_stack g d -> NoDup d.
Proof.
  intros d g ES. apply NoDup_nth_error. intros i j L E. destruct (nth_error d i) as [a|] eqn:A; [|apply nth_error_None in A; lia].
  apply (stack_overlap d g ES i j a a A (eq_sym E)). apply overlap_self. apply nth_error_In in A. exact (stack_pos d g ES a A).
Qed.
Lemma map_nodup_eq : forall {A B : Type} (f : A -> B) l, NoDup (map f l) -> forall a a', In a l -> In a' l -> f a = f a' -> a = a'.
Proof.
  intros A B f. induction l as [|y t IH]; intros N a a' I I' E; [contradiction|]. cbn [map] in N. apply NoDup_cons_iff in N. destruct N as [N1 N2].
  destruct I as [->|I], I' as [->|I']; auto; exfalso; apply N1; [rewrite E|rewrite <- E]; apply in_map; assumption.
Qed.
Lemma overlap_same : forall g ys bot, layered g ys bot -> forall y y', In y ys -> In y' ys -> overlap (y_layer y) (y_layer y') -> y = y'.
Proof.
  intros g ys bot (d & PD & ES & _) y y' I I' OV. assert (N : NoDup (map y_layer ys)) by (eapply Permutation_NoDup; [apply Permutation_sym; exact PD|eapply stack_nodup; eauto]).
  apply (map_nodup_eq y_layer ys N); auto. assert (J : In (y_layer y) d) by (eapply Permutation_in; [exact PD|apply in_map; auto]). assert (J' : In (y_layer y') d) by (eapply Permutation_in; [exact PD|apply in_map; auto]).
  apply In_nth_error in J. destruct J as [i J]. apply In_nth_error in J'. destruct J' as [j J']. pose proof (stack_overlap d g ES i j _ _ J J' OV) as <-. congruence.
Qed.

(** ** A layer and itself *)
Lemma custom_refl : forall l p, same_custom l l p p. Proof. intros l [v|ll|f]; cbn; auto; intros z _; reflexivity. Qed.
Lemma layer_refl : forall y, same_layer y y.
Proof.
  intros y. assert (P : forall p, same_param (y_layer y) (y_layer y) p p) by (intros p z _; reflexivity). assert (M : forall m, same_mult m m) by (intros m X; reflexivity).
  assert (MS : forall m, same_mults m m) by (intros m; repeat split; apply M). assert (F : forall f, same_four (y_layer y) (y_layer y) f f) by (intros f; repeat split; apply custom_refl).
  split; [reflexivity|]. split.
  - destruct (y_lat y) as [m|]; [|exact Logic.I]. cbn [both_or_none]. destruct m; cbn [same_lateral]; repeat split; auto using custom_refl; try (intros ? _; reflexivity). destruct k; cbn [both_or_none]; auto.
  - destruct (y_ax y) as [[a|a]|]; cbn; auto 12.
Qed.

(** ** The order of the layers *)
Section Order.
Variables (rnd : R -> Q) (ch : chance) (sort : list (Q * section) -> list (Q * section)) (o : options) (sections : list section) (gr bot wt : Q) (ys ys' : list soil_layer)
  (x : list Q) (c : Q) (p : list section) (b : Q).
Hypothesis PL : placed sections gr bot ys x c p b.
Hypothesis PE : Permutation ys ys'.
Hypothesis ST : steady ch.

Lemma order_requests : same_requests p b ys x ys' x.
Proof using PE.
  assert (H : forall ys1 ys2, Permutation ys1 ys2 -> forall z, requested p b (Some (map y_layer ys1)) x z -> requested p b (Some (map y_layer ys2)) x z).
  { intros ys1 ys2 PP z [R|[(ls & l & E & I & R)|R]]; [left; exact R| |right; right; exact R]. right. left. injection E as <-. exists (map y_layer ys2), l. split; [reflexivity|].
    split; [|exact R]. eapply Permutation_in; [apply Permutation_map; exact PP|exact I]. }
  intros z. split; apply H; [exact PE|apply Permutation_sym; exact PE].
Qed.
Lemma order_placed : placed sections gr bot ys' x c p b.
Proof using PL PE.
  destruct PL as [P1 P2 P3 P4 (d & PD & ES & SB) P6 P7 P8 P9]. constructor; auto.
  - exists d. split; [|auto]. eapply perm_trans; [apply Permutation_map; apply Permutation_sym; exact PE|exact PD].
  - intros z R. apply P9. apply order_requests. exact R.
Qed.
Lemma order_eq : forall y y', In y ys -> In y' ys' -> overlap (y_layer y) (y_layer y') -> y' = y.
Proof using PL PE. intros y y' I I' OV. symmetry. apply (overlap_same gr ys bot (pl_layers _ _ _ _ _ _ _ _ PL)); auto. eapply Permutation_in; [apply Permutation_sym; exact PE|exact I']. Qed.
Lemma order_soil : same_soil ys ys'.
Proof using PL PE. intros y y' I I' OV. rewrite (order_eq y y' I I' OV). apply layer_refl. Qed.
Lemma order_luck : same_luck ys ys' ch ch.
Proof using PL PE ST.
  intros y y' a a' I I' OV SC HA HA' HD. rewrite (order_eq y y' I I' OV) in *. destruct (ST a a') as (S1 & S2).
  { split; [exact SC|]. split; [rewrite HA, HA'; reflexivity|Lqa.lra]. }
  split; intros m m' E E'; rewrite E in E'; injection E' as <-; auto.
Qed.
Lemma order_finer : finer ys' ys.
Proof using PE. intros y I. exists y. split; [eapply Permutation_in; [apply Permutation_sym; exact PE|exact I]|]. split; Lqa.lra. Qed.
End Order.

(** ** Cutting a layer *)
Lemma linear_upper : forall l v w z u, l_bottom l < z -> z < l_top l -> linear (mkLayer (l_top l) z u) v (linear l v w z) = linear l v w.
Proof.
  intros l v w z u H1 H2. apply Qlt_Rlt in H1, H2. apply functional_extensionality. intros t. unfold linear. cbn [l_top l_bottom]. field. split; lra.
Qed.
Lemma linear_lower : forall l v w z u, l_bottom l < z -> z < l_top l -> linear (mkLayer z (l_bottom l) u) (linear l v w z) w = linear l v w.
Proof.
  intros l v w z u H1 H2. apply Qlt_Rlt in H1, H2. apply functional_extensionality. intros t. unfold linear. cbn [l_top l_bottom]. field. split; lra.
Qed.
Lemma linear_top : forall l v w, l_bottom l < l_top l -> linear l v w (l_top l) = v.
Proof. intros l v w H. apply Qlt_Rlt in H. unfold linear. field. lra. Qed.
Lemma linear_bottom : forall l v w, l_bottom l < l_top l -> linear l v w (l_bottom l) = w.
Proof. intros l v w H. apply Qlt_Rlt in H. unfold linear. field. lra. Qed.

Section Parts.
Variables (l l' : layer) (part : rparam -> rparam).
Hypothesis PP : forall q, same_param l l' q (part q).
Hypothesis PF : forall f, part (PFun f) = PFun f.
Hypothesis PN : forall q, match q with PFun _ => True | _ => match part q with PFun _ => False | _ => True end end.
Lemma part_custom : forall q, same_custom l l' q (part q).
Proof using PP PF PN. intros q. pose proof (PN q) as N. pose proof (PP q) as H. destruct q as [v|k|f]; [| |rewrite PF; intros X; reflexivity]; unfold same_custom; destruct (part _); auto; contradiction. Qed.
Lemma part_four_same : forall f, same_four l l' f (part_four part f).
Proof using PP PF PN. intros f. unfold same_four, part_four. cbn [f_X f_n f_k f_Y]. auto using part_custom. Qed.
Lemma part_lateral_same : forall m, same_lateral l l' m (part_lateral part m).
Proof using PP PF PN.
  assert (M : forall m, same_mult m m) by (intros m X; reflexivity). assert (MS : forall m, same_mults m m) by (intros m; repeat split; apply M).
  intros m. destruct m; cbn [same_lateral part_lateral]; repeat split; auto using part_custom, part_four_same; try apply part_four_same; try apply M. destruct k; cbn [both_or_none option_map]; auto.
Qed.
End Parts.

Lemma upper_param_same : forall l z u q, l_bottom l < z -> z < l_top l -> same_param l (mkLayer (l_top l) z u) q (upper_param l z q).
Proof. intros l z u q H1 H2 t _. destruct q as [v|k|f]; try reflexivity. destruct k as [|v [|w [|]]]; try reflexivity. cbn [upper_param param_at]. rewrite (linear_upper l v w z u H1 H2). reflexivity. Qed.
Lemma lower_param_same : forall l z u q, l_bottom l < z -> z < l_top l -> same_param l (mkLayer z (l_bottom l) u) q (lower_param l z q).
Proof. intros l z u q H1 H2 t _. destruct q as [v|k|f]; try reflexivity. destruct k as [|v [|w [|]]]; try reflexivity. cbn [lower_param param_at]. rewrite (linear_lower l v w z u H1 H2). reflexivity. Qed.
Lemma upper_same : forall y z, l_bottom (y_layer y) < z -> z < l_top (y_layer y) -> same_layer y (upper_part y z).
Proof.
  intros y z H1 H2. set (l := y_layer y) in *. unfold upper_part. fold l. split; [reflexivity|]. cbn [y_layer y_lat y_ax]. fold l. split.
  - destruct (y_lat y) as [m|]; [|exact Logic.I]. cbn [both_or_none option_map]. apply part_lateral_same; [intros q; apply upper_param_same; auto|reflexivity|]. intros [v|k|f]; cbn; auto. destruct k as [|v [|w [|]]]; auto.
  - destruct (y_ax y) as [[a|a]|]; [| |exact Logic.I]; cbn [both_or_none option_map part_axial same_axial ca_Su_top ca_Su_bottom ca_plug ca_tm ca_zm ca_Qm ca_wm ca_residual ca_tension sa_delta_top sa_delta_bottom sa_K sa_plug sa_tm sa_zm sa_Qm sa_wm sa_tension];
    (split; [intros t _; rewrite (linear_top l) by Lqa.lra; rewrite linear_upper by auto; reflexivity|repeat split; reflexivity]).
Qed.
Lemma lower_same : forall y z, l_bottom (y_layer y) < z -> z < l_top (y_layer y) -> same_layer y (lower_part y z).
Proof.
  intros y z H1 H2. set (l := y_layer y) in *. unfold lower_part. fold l. split; [reflexivity|]. cbn [y_layer y_lat y_ax]. fold l. split.
  - destruct (y_lat y) as [m|]; [|exact Logic.I]. cbn [both_or_none option_map]. apply part_lateral_same; [intros q; apply lower_param_same; auto|reflexivity|]. intros [v|k|f]; cbn; auto. destruct k as [|v [|w [|]]]; auto.
  - destruct (y_ax y) as [[a|a]|]; [| |exact Logic.I]; cbn [both_or_none option_map part_axial same_axial ca_Su_top ca_Su_bottom ca_plug ca_tm ca_zm ca_Qm ca_wm ca_residual ca_tension sa_delta_top sa_delta_bottom sa_K sa_plug sa_tm sa_zm sa_Qm sa_wm sa_tension];
    (split; [intros t _; rewrite (linear_bottom l) by Lqa.lra; rewrite linear_lower by auto; reflexivity|repeat split; reflexivity]).
Qed.

Lemma cut_stack : forall d1 d2 (l : layer) z g u u', exact_stack g (d1 ++ l :: d2) -> l_bottom l < z -> z < l_top l ->
  exact_stack g (d1 ++ mkLayer (l_top l) z u :: mkLayer z (l_bottom l) u' :: d2) /\ stack_bottom g (d1 ++ mkLayer (l_top l) z u :: mkLayer z (l_bottom l) u' :: d2) = stack_bottom g (d1 ++ l :: d2).
Proof.
  induction d1 as [|y t IH]; intros d2 l z g u u' ES H1 H2; cbn [app exact_stack stack_bottom l_top l_bottom] in *.
  - destruct ES as (A & B & C). repeat split; auto; try reflexivity.
  - destruct ES as (A & B & C). destruct (IH d2 l z _ u u' C H1 H2) as [I1 I2]. auto.
Qed.

Section Cut.
Variables (sections : list section) (gr bot : Q) (l1 l2 : list soil_layer) (y : soil_layer) (z : Q) (x : list Q) (c : Q) (p : list section) (b : Q).
Notation with_cut := (with_cut b z x).
Notation ys := (l1 ++ y :: l2).
Notation ys' := (l1 ++ upper_part y z :: lower_part y z :: l2).
Hypothesis PL : placed sections gr bot ys with_cut c p b.
Hypothesis Z1 : l_bottom (y_layer y) < z.
Hypothesis Z2 : z < l_top (y_layer y).

Lemma in_cut : forall y', In y' ys' -> In y' l1 \/ In y' l2 \/ y' = upper_part y z \/ y' = lower_part y z.
Proof using. intros y' I. apply in_app_or in I. destruct I as [I|[I|[I|I]]]; auto. Qed.
Lemma old_in : forall y', In y' l1 \/ In y' l2 -> In y' ys /\ In y' ys'.
Proof using. intros y' H. split; apply in_or_app; destruct H; [left|right; right|left|right; right; right]; auto. Qed.
Lemma parts_in : In (upper_part y z) ys' /\ In (lower_part y z) ys'.
Proof using. split; apply in_or_app; right; [left|right; left]; reflexivity. Qed.
Lemma y_in : In y ys. Proof using. apply in_or_app. right. left. reflexivity. Qed.

Lemma cut_requests : same_requests p b ys with_cut ys' x.
Proof using Z1 Z2.
  intros t. unfold requested. split; (intros [H|[(ls & l & E & I & R & G)|H]]; [left; exact H| |]).
  - right. left. injection E as <-. apply in_map_iff in I. destruct I as (y0 & <- & I). exists (map y_layer ys'). apply in_app_or in I. destruct I as [I|[<-|I]].
    + exists (y_layer y0). split; [reflexivity|]. split; [apply in_map, old_in; auto|auto].
    + destruct R as [R|R]; [exists (y_layer (upper_part y z))|exists (y_layer (lower_part y z))]; (split; [reflexivity|]; split; [apply in_map, parts_in|]; auto).
    + exists (y_layer y0). split; [reflexivity|]. split; [apply in_map, old_in; auto|auto].
  - unfold SplitSpec.with_cut in H. destruct (Qle_bool b z) eqn:D; [|right; right; exact H]. destruct H as (k & [<-|I] & E); [|right; right; exists k; auto].
    right. left. apply Qle_bool_iff in D. exists (map y_layer ys'), (y_layer (upper_part y z)). split; [reflexivity|]. split; [apply in_map, parts_in|]. split; [right; cbn; rewrite E; reflexivity|]. first [rewrite E; exact D|rewrite <- E; exact D].
  - injection E as <-. apply in_map_iff in I. destruct I as (y0 & <- & I). destruct (in_cut y0 I) as [J|[J|[->| ->]]].
    + right. left. exists (map y_layer ys), (y_layer y0). split; [reflexivity|]. split; [apply in_map, old_in; auto|auto].
    + right. left. exists (map y_layer ys), (y_layer y0). split; [reflexivity|]. split; [apply in_map, old_in; auto|auto].
    + cbn in R. destruct R as [R|R].
      * right. left. exists (map y_layer ys), (y_layer y). split; [reflexivity|]. split; [apply in_map, y_in|auto].
      * right. right. unfold SplitSpec.with_cut. rewrite (proj2 (Qle_bool_iff b z)) by Lqa.lra. exists z. split; [left; reflexivity|]. Lqa.lra.
    + cbn in R. destruct R as [R|R].
      * right. right. unfold SplitSpec.with_cut. rewrite (proj2 (Qle_bool_iff b z)) by Lqa.lra. exists z. split; [left; reflexivity|]. Lqa.lra.
      * right. left. exists (map y_layer ys), (y_layer y). split; [reflexivity|]. split; [apply in_map, y_in|auto].
  - right. right. destruct H as (k & I & E). exists k. split; [|exact E]. unfold SplitSpec.with_cut. destruct (Qle_bool b z); [right|]; exact I.
Qed.
Lemma cut_placed : placed sections gr bot ys' x c p b.
Proof using PL Z1 Z2.
  pose proof cut_requests as CR. destruct PL as [P1 P2 P3 P4 (d & PD & ES & SB) P6 P7 P8 P9]. constructor; auto.
  - rewrite map_app in PD. cbn [map] in PD. assert (I : In (y_layer y) d) by (eapply Permutation_in; [exact PD|apply in_or_app; right; left; reflexivity]).
    apply in_split in I. destruct I as (d1 & d2 & ->). apply Permutation_app_inv in PD. destruct (cut_stack d1 d2 (y_layer y) z gr (l_weight (y_layer y)) (l_weight (y_layer y)) ES Z1 Z2) as [C1 C2].
    eexists. split; [|split; [exact C1|rewrite C2; exact SB]]. rewrite map_app. cbn [map]. unfold upper_part, lower_part. cbn [y_layer]. apply Permutation_elt. apply Permutation_elt. exact PD.
  - intros t I. apply P8. unfold SplitSpec.with_cut. destruct (Qle_bool b z); [right|]; exact I.
  - intros t R. apply P9. apply CR. exact R.
Qed.
Lemma cut_finer : finer ys' ys.
Proof using Z1 Z2.
  intros y' I. destruct (in_cut y' I) as [J|[J|[->| ->]]].
  - exists y'. split; [apply old_in; auto|]. split; Lqa.lra.
  - exists y'. split; [apply old_in; auto|]. split; Lqa.lra.
  - exists y. split; [apply y_in|]. cbn. split; Lqa.lra.
  - exists y. split; [apply y_in|]. cbn. split; Lqa.lra.
Qed.
Lemma cut_soil : same_soil ys ys'.
Proof using PL Z1 Z2.
  intros y0 y' I I' OV. pose proof (pl_layers _ _ _ _ _ _ _ _ PL) as LA. destruct (in_cut y' I') as [J|[J|[->| ->]]].
  - rewrite (overlap_same gr ys bot LA y0 y' I (proj1 (old_in y' (or_introl J))) OV). apply layer_refl.
  - rewrite (overlap_same gr ys bot LA y0 y' I (proj1 (old_in y' (or_intror J))) OV). apply layer_refl.
  - assert (E : y0 = y). { apply (overlap_same gr ys bot LA y0 y I y_in). destruct OV as (t & A & B & C & D). cbn in C, D. exists t. repeat split; Lqa.lra. } rewrite E. apply upper_same; auto.
  - assert (E : y0 = y). { apply (overlap_same gr ys bot LA y0 y I y_in). destruct OV as (t & A & B & C & D). cbn in C, D. exists t. repeat split; Lqa.lra. } rewrite E. apply lower_same; auto.
Qed.
End Cut.
