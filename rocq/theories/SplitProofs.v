(** Springs depend on the soil at each elevation, not on its division into layers. *)
From Coq Require Import List Bool Arith ZArith QArith Qabs Reals Qreals Permutation Lia FunctionalExtensionality Lqa Lra.
From Verif Require Import Base PileModel PileSpec MeshModel MeshSpec MeshProofs StressModel StressSpec StressProofs CreateModel CreateProofs
  AxialModel LateralModel CapacityModel FullModel SiteProofs SplitSpec.
Import ListNotations.
Local Open Scope Q_scope.

(** ** Spring functions *)
Section Spot.
Variables (l l' : layer) (z : Q) (sig X D L : R) (wet : bool).
Hypothesis SH : shared l l' z.
Hypothesis TL : l_bottom l < l_top l.
Hypothesis TL' : l_bottom l' < l_top l'.
Notation q := (mkPlace sig X (Q2R (l_top l - l_bottom l)) (Q2R (l_top l - z)) D L wet).
Notation q' := (mkPlace sig X (Q2R (l_top l' - l_bottom l')) (Q2R (l_top l' - z)) D L wet).

Lemma Q2R_height : forall k : layer, l_bottom k < l_top k -> (Q2R (l_top k) - Q2R (l_bottom k) <> 0)%R.
Proof using. intros k H. apply Qlt_Rlt in H. lra. Qed.

Lemma interpolated : forall k v w, l_bottom k < l_top k -> at_depth v w (Q2R (l_top k - z)) (Q2R (l_top k - l_bottom k)) = Ok (linear k v w z).
Proof using.
  intros k v w H. unfold at_depth, linear, PisaModel.nonzero. rewrite !Q2R_minus. pose proof (Q2R_height k H) as N.
  destruct (Req_EM_T _ 0) as [E|_]; [lra|]. do 2 f_equal. field. exact N.
Qed.
Lemma in_layer_at : forall k p, l_bottom k < l_top k ->
  in_layer p (Q2R (l_top k - z)) (Q2R (l_top k - l_bottom k)) = match param_at k p z with Some v => Ok v | None => Err TypeError end.
Proof using.
  intros k p H. unfold in_layer. assert (C : forall v, linear k v v z = v) by (intros v; unfold linear; replace (v - v)%R with 0%R by lra; lra).
  destruct p as [v|[|v [|w [|? ?]]]|f]; cbn [LateralModel.top_bottom bind fst snd param_at]; try reflexivity; rewrite interpolated by exact H; rewrite ?C; reflexivity.
Qed.
Lemma value_same : forall p p', same_param l l' p p' -> value p q = value p' q'.
Proof using SH TL TL'. intros p p' H. unfold value. cbn [q_depth q_height]. rewrite !in_layer_at by assumption. rewrite (H z SH). reflexivity. Qed.
Lemma custom_same : forall p p', same_custom l l' p p' -> custom_value p q = custom_value p' q'.
Proof using SH TL TL'.
  intros p p' H. pose proof (value_same p p') as V. unfold value in V. unfold custom_value, at_current_depth. cbn [q_depth q_height q_X] in *.
  destruct p, p'; cbn [same_custom] in H; try contradiction; auto. rewrite H. reflexivity.
Qed.
Lemma four_same : forall f f' k, same_four l l' f f' -> with_four f q k = with_four f' q' k.
Proof using SH TL TL'. intros f f' k (A & B & C & E). unfold with_four. rewrite (custom_same _ _ A), (custom_same _ _ B), (custom_same _ _ C), (custom_same _ _ E). reflexivity. Qed.
Lemma inside_both : forall A (r r' : res A), r = r' -> inside_layer q r = inside_layer q' r'.
Proof using SH.
  intros A r r' ->. unfold inside_layer. cbn [q_height q_depth]. destruct SH as (A1 & A2 & A3 & A4).
  destruct (Rlt_dec _ _) as [H|_]; [exfalso; apply Rlt_Qlt in H; Lqa.lra|]. destruct (Rlt_dec _ _) as [H|_]; [exfalso; apply Rlt_Qlt in H; Lqa.lra|]. reflexivity.
Qed.

Lemma curve_same : forall m m' u ymax n, same_lateral l l' m m' -> py_curve m u q ymax n = py_curve m' u q' ymax n.
Proof using SH TL TL'.
  intros m m' u ymax n H. destruct m, m'; cbn [same_lateral] in H; try contradiction; cbn [py_curve].
  - destruct H as (A & B & _). rewrite (value_same _ _ A), (value_same _ _ B). reflexivity.
  - destruct H as (A & B & _). rewrite (value_same _ _ A), (value_same _ _ B). reflexivity.
  - destruct H as (A & B & _). rewrite (value_same _ _ A), (value_same _ _ B). reflexivity.
  - destruct H as (A & <- & B & <- & _). rewrite (value_same _ _ A). unfold subgrade. destruct k as [k|], k0 as [k0|]; cbn [both_or_none] in B; try contradiction; [rewrite (value_same _ _ B)|]; reflexivity.
  - destruct H as (A & B & <- & <- & _). rewrite (value_same _ _ A), (value_same _ _ B). reflexivity.
  - destruct H as (A & B & <- & <- & _). rewrite (value_same _ _ A), (value_same _ _ B). reflexivity.
  - destruct H as (A & B & <- & <- & <- & _). rewrite (value_same _ _ A), (value_same _ _ B). reflexivity.
  - destruct H as (A & B & _). rewrite (custom_same _ _ A). destruct (custom_value _ _); [|reflexivity]. cbn [bind]. rewrite (four_same _ _ _ B). reflexivity.
  - destruct H as (A & B & C & _). rewrite (custom_same _ _ A), (custom_same _ _ B). destruct (custom_value _ _); [|reflexivity]. cbn [bind]. destruct (custom_value _ _); [|reflexivity]. cbn [bind]. rewrite (four_same _ _ _ C). reflexivity.
Qed.

Lemma mults_same : forall m m' Y, same_lateral l l' m m' -> at_X (p_multiplier m) Y = at_X (p_multiplier m') Y /\ at_X (y_multiplier m) Y = at_X (y_multiplier m') Y /\
  at_X (m_multiplier m) Y = at_X (m_multiplier m') Y /\ at_X (t_multiplier m) Y = at_X (t_multiplier m') Y.
Proof using.
  intros m m' Y H. unfold same_mults, same_mult in *.
  destruct m, m'; cbn [same_lateral] in H; try contradiction; unfold same_mults, same_mult in H; cbn [p_multiplier y_multiplier m_multiplier t_multiplier];
    repeat match goal with H : _ /\ _ |- _ => destruct H end; repeat split; auto.
Qed.
Lemma py_same : forall m m' u ymax n, same_lateral l l' m m' -> py_spring_fct m u q ymax n = py_spring_fct m' u q' ymax n.
Proof using SH TL TL'.
  intros m m' u ymax n H. unfold py_spring_fct. apply inside_both. rewrite (curve_same m m' u ymax n H). cbn [q_X]. destruct (mults_same m m' X H) as (-> & -> & _). reflexivity.
Qed.
Lemma hb_same : forall m m' ymax n, same_lateral l l' m m' -> Hb_spring_fct m q ymax n = Hb_spring_fct m' q' ymax n.
Proof using SH TL TL'.
  intros m m' ymax n H. destruct m, m'; cbn [same_lateral] in H; try contradiction; cbn [Hb_spring_fct]; try reflexivity; apply inside_both.
  - destruct H as (A & B & _). rewrite (value_same _ _ A), (value_same _ _ B). reflexivity.
  - destruct H as (A & B & _). rewrite (value_same _ _ A), (value_same _ _ B). reflexivity.
  - destruct H as (A & B & _). rewrite (value_same _ _ A), (value_same _ _ B). reflexivity.
  - destruct H as (A & _ & _ & B & _). rewrite (custom_same _ _ A). destruct (custom_value _ _); [|reflexivity]. cbn [bind]. rewrite (four_same _ _ _ B). reflexivity.
  - destruct H as (A & B & _ & _ & C & _). rewrite (custom_same _ _ A), (custom_same _ _ B). destruct (custom_value _ _); [|reflexivity]. cbn [bind]. destruct (custom_value _ _); [|reflexivity]. cbn [bind]. rewrite (four_same _ _ _ C). reflexivity.
Qed.
Lemma mb_same : forall m m' ymax n, same_lateral l l' m m' -> Mb_spring_fct m q ymax n = Mb_spring_fct m' q' ymax n.
Proof using SH TL TL'.
  intros m m' ymax n H. destruct m, m'; cbn [same_lateral] in H; try contradiction; cbn [Mb_spring_fct]; try reflexivity; apply inside_both.
  - destruct H as (A & B & _). rewrite (value_same _ _ A), (value_same _ _ B). reflexivity.
  - destruct H as (A & B & _). rewrite (value_same _ _ A), (value_same _ _ B). reflexivity.
  - destruct H as (A & B & _). rewrite (value_same _ _ A), (value_same _ _ B). reflexivity.
  - destruct H as (A & _ & _ & _ & B & _). rewrite (custom_same _ _ A). destruct (custom_value _ _); [|reflexivity]. cbn [bind]. rewrite (four_same _ _ _ B). reflexivity.
  - destruct H as (A & B & _ & _ & _ & C & _). rewrite (custom_same _ _ A), (custom_same _ _ B). destruct (custom_value _ _); [|reflexivity]. cbn [bind]. destruct (custom_value _ _); [|reflexivity]. cbn [bind]. rewrite (four_same _ _ _ C). reflexivity.
Qed.
Lemma mt_curve_same : forall m m' u idx ymax n, same_lateral l l' m m' -> LateralModel.mt_curve m u idx q ymax n = LateralModel.mt_curve m' u idx q' ymax n.
Proof using SH TL TL'.
  intros m m' u idx ymax n H. pose proof (py_same m m' u ymax n H) as PY. destruct m, m'; cbn [same_lateral] in H; try contradiction; cbn [LateralModel.mt_curve].
  - destruct H as (A & B & _). rewrite (value_same _ _ A), (value_same _ _ B). reflexivity.
  - destruct H as (A & B & _). rewrite (value_same _ _ A), (value_same _ _ B). reflexivity.
  - destruct H as (A & B & _). rewrite (value_same _ _ A), (value_same _ _ B). reflexivity.
  - destruct H as (A & _). rewrite (value_same _ _ A), PY. reflexivity.
  - destruct H as (A & _). rewrite (value_same _ _ A). reflexivity.
  - destruct H as (A & _). rewrite (value_same _ _ A). reflexivity.
  - reflexivity.
  - destruct H as (A & B & C & _). rewrite (custom_same _ _ A). destruct (custom_value _ _) as [g|]; [|reflexivity]. cbn [bind]. rewrite (four_same _ _ _ B).
    destruct (with_four _ _ _) as [cc|]; [|reflexivity]. cbn [bind]. f_equal. f_equal. apply functional_extensionality. intros pp. apply four_same. exact C.
  - destruct H as (A & B & C & E & _). rewrite (custom_same _ _ A), (custom_same _ _ B). destruct (custom_value _ _); [|reflexivity]. cbn [bind]. destruct (custom_value _ _) as [g|]; [|reflexivity]. cbn [bind]. rewrite (four_same _ _ _ C).
    destruct (with_four _ _ _) as [cc|]; [|reflexivity]. cbn [bind]. f_equal. apply functional_extensionality. intros pp. apply four_same. exact E.
Qed.
Lemma mt_same : forall m m' u idx ymax n, same_lateral l l' m m' -> mt_spring_fct m u idx q ymax n = mt_spring_fct m' u idx q' ymax n.
Proof using SH TL TL'.
  intros m m' u idx ymax n H. pose proof (mt_curve_same m m' u idx ymax n H) as MC. destruct (mults_same m m' X H) as (_ & _ & MM & MT).
  destruct m, m'; cbn [same_lateral] in H; try contradiction; unfold mt_spring_fct; try (apply inside_both; rewrite MC; cbn [q_X]; rewrite MM, MT; reflexivity). exact MC.
Qed.

Lemma signature_same : forall m m', same_lateral l l' m m' -> spring_signature m = spring_signature m'.
Proof using. intros m m' H. destruct m, m'; cbn [same_lateral] in H; try contradiction; cbn [spring_signature]; try reflexivity; repeat match goal with H : _ /\ _ |- _ => destruct H end; subst; reflexivity. Qed.
End Spot.

(** ** Calls *)
Section Calls.
Variables (rnd : R -> Q) (l l' : layer) (z : Q) (a a' : args).
Hypothesis SH : shared l l' z.
Hypothesis TL : l_bottom l < l_top l.
Hypothesis TL' : l_bottom l' < l_top l'.
Hypothesis SC : same_call a a'.
Hypothesis HA : a_height a = l_top l - l_bottom l /\ a_depth a = l_top l - z.
Hypothesis HA' : a_height a' = l_top l' - l_bottom l' /\ a_depth a' = l_top l' - z.

Lemma place_same : forall A (F F' : place -> res A) store,
  (forall sig X D L wet, F (mkPlace sig X (Q2R (l_top l - l_bottom l)) (Q2R (l_top l - z)) D L wet) = F' (mkPlace sig X (Q2R (l_top l' - l_bottom l')) (Q2R (l_top l' - z)) D L wet)) ->
  at_place a F store = at_place a' F' store.
Proof using SC HA HA'.
  intros A F F' store H. destruct SC as (S1 & S2 & S3 & S4 & S5 & _). destruct HA as [H1 H2], HA' as [H3 H4].
  unfold at_place. rewrite H1, H2, H3, H4. rewrite <- S3. destruct (a_sig a) as [s|], (a_sig a') as [s'|]; cbn [nan_eq] in S1; try contradiction; [|reflexivity].
  destruct (a_D a) as [D|]; [|reflexivity]. rewrite H, (Qeq_eqR _ _ S1), (Qeq_eqR _ _ S2), (Qeq_eqR _ _ S4), S5. reflexivity.
Qed.

Lemma lateral_calls : forall ch ch' m m', same_lateral l l' m m' -> c_py ch m a = c_py ch' m' a' -> c_mt ch m a = c_mt ch' m' a' ->
  f_py (lateral_of rnd ch m) a = f_py (lateral_of rnd ch' m') a' /\ f_mt (lateral_of rnd ch m) a = f_mt (lateral_of rnd ch' m') a' /\
  f_hb (lateral_of rnd ch m) a = f_hb (lateral_of rnd ch' m') a' /\ f_mb (lateral_of rnd ch m) a = f_mb (lateral_of rnd ch' m') a'.
Proof using SH TL TL' SC HA HA'.
  intros ch ch' m m' SL C1 C2. unfold lateral_of. cbn [f_py f_mt f_hb f_mb]. rewrite C1, C2. split; [|split; [|split]]; apply place_same; intros sig X D L wet.
  - apply py_same; auto.
  - apply mt_same; auto.
  - apply hb_same; auto.
  - apply mb_same; auto.
Qed.
Lemma lateral_has : forall ch ch' m m', same_lateral l l' m m' -> has_py (lateral_of rnd ch m) = has_py (lateral_of rnd ch' m') /\ has_mt (lateral_of rnd ch m) = has_mt (lateral_of rnd ch' m') /\
  has_hb (lateral_of rnd ch m) = has_hb (lateral_of rnd ch' m') /\ has_mb (lateral_of rnd ch m) = has_mb (lateral_of rnd ch' m').
Proof using. intros ch ch' m m' SL. unfold lateral_of. cbn [has_py has_mt has_hb has_mb]. rewrite (signature_same l l' m m' SL). auto. Qed.

Lemma tz_same : forall d d' m m', same_axial l l' m m' -> d m a = d' m' a' -> tz_curve d m a = tz_curve d' m' a'.
Proof using SH TL TL' SC HA HA'.
  intros d d' m m' SA E. destruct SC as (S1 & S2 & S3 & S4 & S5 & S6 & S7). destruct HA as [H1 H2], HA' as [H3 H4].
  unfold tz_curve. rewrite H1, H2, H3, H4. rewrite <- S3, <- S6, <- S7, <- E. destruct (d m a) as [u idx].
  destruct (a_sig a) as [s|], (a_sig a') as [s'|]; cbn [nan_eq] in S1; try contradiction; [|reflexivity].
  destruct (a_D a) as [D|]; [|reflexivity]. destruct (a_perim a) as [co|]; [|reflexivity]. destruct (a_perim_in a) as [ci|]; [|reflexivity].
  rewrite (Qeq_eqR _ _ S1). f_equal. destruct m as [c|c], m' as [c'|c']; cbn [same_axial] in SA; try contradiction; destruct SA as (V & SA); specialize (V z SH).
  - destruct SA as (E1 & E2 & E3 & _ & _ & E6 & E7). unfold clay_tz. rewrite !interpolated, V, E1, E2, E3, E6, E7 by assumption. reflexivity.
  - destruct SA as (E1 & E2 & E3 & E4 & _ & _ & E7). unfold sand_tz. rewrite !interpolated, V, E1, E2, E3, E4, E7 by assumption. reflexivity.
Qed.
Lemma qz_same : forall d d' ta fp m m', same_axial l l' m m' -> d m a = d' m' a' -> qz_curve d ta fp m a = qz_curve d' ta fp m' a'.
Proof using SH TL TL' SC HA HA'.
  intros d d' ta fp m m' SA E. destruct SC as (S1 & S2 & S3 & S4 & S5 & S6 & S7). destruct HA as [H1 H2], HA' as [H3 H4].
  unfold qz_curve. rewrite H1, H2, H3, H4. rewrite <- S3, <- E. destruct (d m a) as [u idx].
  destruct (a_sig a) as [s|], (a_sig a') as [s'|]; cbn [nan_eq] in S1; try contradiction; [|reflexivity].
  destruct (a_D a) as [D|]; [|reflexivity].
  rewrite (Qeq_eqR _ _ S1). f_equal. destruct m as [c|c], m' as [c'|c']; cbn [same_axial] in SA; try contradiction; destruct SA as (V & SA); specialize (V z SH).
  - destruct SA as (E1 & _ & _ & E4 & E5 & _). unfold clay_Qz. rewrite !interpolated, V, E1, E4, E5 by assumption. reflexivity.
  - destruct SA as (_ & E1 & _ & _ & E4 & E5 & _). unfold sand_Qz. rewrite !interpolated, V, E1, E4, E5 by assumption. reflexivity.
Qed.
End Calls.

(** ** The loop over the layers *)
Section Loop.
Context {V : Type}.
Variables (st st' : setting) (layers layers' : list (@slayer V)).
Hypothesis EL : elems st' = elems st.
Hypothesis FL : distributed_lateral st' = distributed_lateral st /\ distributed_moment st' = distributed_moment st /\ base_shear st' = base_shear st /\ base_moment st' = base_moment st /\
  distributed_axial st' = distributed_axial st /\ base_axial st' = base_axial st.

(** What two layers that hold element [i] must agree on *)
Definition agree (i : nat) (sl sl' : @slayer V) : Prop :=
  both_or_none (fun la la' => has_py la = has_py la' /\ has_mt la = has_mt la' /\
      forall j, (j < 2)%nat -> f_py la (shaft_args st (s_layer sl) i j) = f_py la' (shaft_args st' (s_layer sl') i j) /\ f_mt la (shaft_args st (s_layer sl) i j) = f_mt la' (shaft_args st' (s_layer sl') i j))
    (s_lat sl) (s_lat sl') /\
  both_or_none (fun ax ax' => forall j, (j < 2)%nat -> f_tz ax (shaft_args st (s_layer sl) i j) = f_tz ax' (shaft_args st' (s_layer sl') i j)) (s_ax sl) (s_ax sl').
Definition agree_base (i : nat) (sl sl' : @slayer V) : Prop :=
  both_or_none (fun la la' => has_hb la = has_hb la' /\ has_mb la = has_mb la' /\
      f_hb la (base_args st (s_layer sl) i) = f_hb la' (base_args st' (s_layer sl') i) /\ f_mb la (base_args st (s_layer sl) i) = f_mb la' (base_args st' (s_layer sl') i)) (s_lat sl) (s_lat sl') /\
  both_or_none (fun ax ax' => f_qz ax (base_args st (s_layer sl) i) = f_qz ax' (base_args st' (s_layer sl') i)) (s_ax sl) (s_ax sl').

Lemma written_same : forall i j sl sl', (j < 2)%nat -> agree i sl sl' -> writes_py st sl i j = writes_py st' sl' i j /\ writes_mt st sl i j = writes_mt st' sl' i j /\ writes_tz st sl i j = writes_tz st' sl' i j.
Proof using FL.
  intros i j sl sl' Hj (A & B). destruct FL as (F1 & F2 & F3 & F4 & F5 & F6). unfold writes_py, writes_mt, writes_tz. rewrite F1, F2, F5. split; [|split].
  - destruct (s_lat sl) as [la|], (s_lat sl') as [la'|]; cbn [both_or_none] in A; try contradiction; [|reflexivity]. destruct A as (-> & _ & A). destruct (A j Hj) as (-> & _). reflexivity.
  - destruct (s_lat sl) as [la|], (s_lat sl') as [la'|]; cbn [both_or_none] in A; try contradiction; [|reflexivity]. destruct A as (_ & -> & A). destruct (A j Hj) as (_ & ->). reflexivity.
  - destruct (s_ax sl) as [la|], (s_ax sl') as [la'|]; cbn [both_or_none] in B; try contradiction; [|reflexivity]. rewrite (B j Hj). reflexivity.
Qed.
Lemma written_base : forall i sl sl', tip_in st (s_layer sl) = tip_in st' (s_layer sl') -> agree_base i sl sl' -> writes_hb st sl i = writes_hb st' sl' i /\ writes_mb st sl i = writes_mb st' sl' i /\ writes_qz st sl i = writes_qz st' sl' i.
Proof using FL.
  intros i sl sl' T (A & B). destruct FL as (F1 & F2 & F3 & F4 & F5 & F6). unfold writes_hb, writes_mb, writes_qz. rewrite F3, F4, F6, T. split; [|split].
  - destruct (s_lat sl) as [la|], (s_lat sl') as [la'|]; cbn [both_or_none] in A; try contradiction; [|reflexivity]. destruct A as (-> & _ & -> & _). reflexivity.
  - destruct (s_lat sl) as [la|], (s_lat sl') as [la'|]; cbn [both_or_none] in A; try contradiction; [|reflexivity]. destruct A as (_ & -> & _ & ->). reflexivity.
  - destruct (s_ax sl) as [la|], (s_ax sl') as [la'|]; cbn [both_or_none] in B; try contradiction; [|reflexivity]. rewrite B. reflexivity.
Qed.

(** Nothing is written for an element that does not exist, nor for a third spring *)
Lemma nothing_else : forall (s : setting) (ls : list (@slayer V)) i j, (length (elems s) <= i)%nat \/ (2 <= j)%nat ->
  m_py (create_springs s ls) i j = None /\ m_mt (create_springs s ls) i j = None /\ m_tz (create_springs s ls) i j = None.
Proof using.
  intros s ls i j H. unfold create_springs.
  assert (W : forall li, In li (work s ls) -> (snd li < length (elems s))%nat) by (intros [sl k] I; apply in_work in I; apply I).
  assert (G : forall (l : list (@slayer V * nat)) (m : @made V), (forall li, In li l -> (snd li < length (elems s))%nat) -> m_py m i j = None /\ m_mt m i j = None /\ m_tz m i j = None ->
    let M := fold_left (fun m li => visit s li m) l m in m_py M i j = None /\ m_mt M i j = None /\ m_tz M i j = None).
  { induction l as [|[sl k] t IH]; intros m L N; cbn [fold_left]; [exact N|]. apply IH; [intros li I; apply L; right; exact I|].
    assert (K := L (sl, k) (or_introl eq_refl)). cbn [snd] in K. destruct N as (N1 & N2 & N3).
    assert (P : forall (f : nat -> nat -> option V) g, f i j = None -> put f k g i j = None).
    { intros f g E. unfold put. destruct H as [H|H]; [replace (Nat.eqb i k) with false by (symmetry; apply Nat.eqb_neq; lia)|replace (j <? 2)%nat with false by (symmetry; apply Nat.ltb_ge; lia); rewrite andb_false_r]; exact E. }
    unfold visit. destruct (s_ax sl), (s_lat sl); cbn [m_py m_mt m_tz]; repeat split; repeat match goal with |- context [if ?c then _ else _] => destruct c end; auto. }
  apply G; [exact W|]. repeat split.
Qed.

Variables (n : nat) (b g : Q).
Hypothesis LEN : length (elems st) = S n.
Hypothesis TP : tip st = b /\ tip st' = b.
Hypothesis LAST : snd (elem st n) == b.
Hypothesis ABOVE : forall i, (i <= n)%nat -> snd (elem st i) < fst (elem st i) /\ b <= snd (elem st i).
Hypothesis BG : b < g.
Hypothesis TOPS : (forall s, In s layers -> l_top (s_layer s) <= g) /\ (forall s, In s layers' -> l_top (s_layer s) <= g).
Hypothesis OWN : forall i, (i <= n)%nat -> g <= snd (elem st i) \/ exists s, In s layers /\ l_bottom (s_layer s) <= snd (elem st i) /\ fst (elem st i) <= l_top (s_layer s).
Hypothesis OWN' : forall i, (i <= n)%nat -> g <= snd (elem st i) \/ exists s, In s layers' /\ l_bottom (s_layer s) <= snd (elem st i) /\ fst (elem st i) <= l_top (s_layer s).
Hypothesis AP : apart layers /\ NoDup layers.
Hypothesis AP' : apart layers' /\ NoDup layers'.
Hypothesis AG : forall i sl sl', In sl layers -> In sl' layers' -> holds st sl i -> holds st sl' i -> agree i sl sl'.
Hypothesis AB : forall sl sl', In sl layers -> In sl' layers' -> holds st sl n -> holds st sl' n -> agree_base n sl sl'.

Lemma elem_same : forall i, elem st' i = elem st i. Proof using EL. intros i. unfold elem. rewrite EL. reflexivity. Qed.
Lemma holds_same : forall (s : @slayer V) i, holds st' s i <-> holds st s i. Proof using EL. intros s i. unfold holds. rewrite !elem_same, EL. reflexivity. Qed.
Lemma held_by : forall i, (i <= n)%nat -> (forall s, In s layers \/ In s layers' -> ~ (l_bottom (s_layer s) <= snd (elem st i) /\ fst (elem st i) <= l_top (s_layer s))) \/
  exists sl sl', In sl layers /\ In sl' layers' /\ holds st sl i /\ holds st sl' i.
Proof using OWN OWN' ABOVE TOPS LEN.
  intros i Hi. destruct (ABOVE i Hi) as [P _]. destruct TOPS as [T T'].
  assert (N : g <= snd (elem st i) -> forall s, In s layers \/ In s layers' -> ~ (l_bottom (s_layer s) <= snd (elem st i) /\ fst (elem st i) <= l_top (s_layer s))).
  { intros G s [I|I] (_ & U); [specialize (T s I)|specialize (T' s I)]; Lqa.lra. }
  destruct (OWN i Hi) as [G|(s & I & A & B)]; [left; auto|]. destruct (OWN' i Hi) as [G|(s' & I' & A' & B')]; [left; auto|].
  right. exists s, s'. unfold holds. rewrite LEN. repeat split; auto; lia.
Qed.

Lemma created_same : create_springs st layers = create_springs st' layers'.
Proof using All.
  assert (SHAFT : forall i j, m_py (create_springs st layers) i j = m_py (create_springs st' layers') i j /\ m_mt (create_springs st layers) i j = m_mt (create_springs st' layers') i j /\
     m_tz (create_springs st layers) i j = m_tz (create_springs st' layers') i j).
  { intros i j. destruct (le_lt_dec (length (elems st)) i) as [Hi|Hi]; [|destruct (le_lt_dec 2 j) as [Hj|Hj]].
    - destruct (nothing_else st layers i j (or_introl Hi)) as (-> & -> & ->). rewrite <- EL in Hi. destruct (nothing_else st' layers' i j (or_introl Hi)) as (-> & -> & ->). auto.
    - destruct (nothing_else st layers i j (or_intror Hj)) as (-> & -> & ->). destruct (nothing_else st' layers' i j (or_intror Hj)) as (-> & -> & ->). auto.
    - destruct (held_by i ltac:(lia)) as [N|(sl & sl' & I & I' & H & H')].
      + destruct (no_layer st layers i j Hj (fun s K => N s (or_introl K))) as (-> & -> & ->).
        destruct (no_layer st' layers' i j Hj) as (-> & -> & ->); [|auto]. intros s K. rewrite elem_same. apply N. right. exact K.
      + destruct (shaft_springs st layers sl i j (proj1 AP) I H Hj) as (-> & -> & ->).
        destruct (shaft_springs st' layers' sl' i j (proj1 AP') I' (proj2 (holds_same sl' i) H') Hj) as (-> & -> & ->).
        apply written_same; auto. }
  assert (BASE : m_hb (create_springs st layers) = m_hb (create_springs st' layers') /\ m_mb (create_springs st layers) = m_mb (create_springs st' layers') /\
     m_qz (create_springs st layers) = m_qz (create_springs st' layers')).
  { destruct TP as [T T']. destruct (held_by n (le_n n)) as [N|(sl & sl' & I & I' & H & H')].
    { exfalso. destruct (OWN n (le_n n)) as [G|(s & I & U)]; [rewrite LAST in G; Lqa.lra|]. exact (N s (or_introl I) U). }
    pose proof (proj2 (holds_same sl' n) H') as H2.
    assert (L1 : snd (elem st n) == tip st) by (rewrite T; exact LAST). assert (L2 : snd (elem st' n) == tip st') by (rewrite T', elem_same; exact LAST).
    destruct (base_springs st layers n LEN L1 ltac:(rewrite T; exact ABOVE) sl (proj2 AP) (proj1 AP) I H) as (-> & -> & ->).
    destruct (base_springs st' layers' n ltac:(rewrite EL; exact LEN) L2 ltac:(rewrite T'; intros i Hi; rewrite elem_same; apply ABOVE; exact Hi) sl' (proj2 AP') (proj1 AP') I' H2) as (-> & -> & ->).
    apply written_base; [|apply AB; auto]. rewrite (holds_tip st n L1 sl H), (holds_tip st' n L2 sl' H2). reflexivity. }
  destruct BASE as (B1 & B2 & B3). destruct (create_springs st layers) as [py mt tz hb mb qz], (create_springs st' layers') as [py' mt' tz' hb' mb' qz']. cbn [m_py m_mt m_tz m_hb m_mb m_qz] in *.
  f_equal; auto; apply functional_extensionality; intros i; apply functional_extensionality; intros j; apply SHAFT.
Qed.
End Loop.

(** ** The mesh *)
From Coq Require Import Qround.
Lemma divider_comp : forall s s' c, s == s' -> divider s c = divider s' c.
Proof.
  intros s s' c E. unfold divider. assert (Z1 : Qceiling (s / c) = Qceiling (s' / c)) by (apply Qceiling_comp; rewrite E; reflexivity). rewrite Z1.
  generalize (S (Z.to_nat (Qceiling (s' / c)))) as fuel, 1%nat as d. induction fuel as [|f IH]; intros d; cbn [divider_loop]; [reflexivity|].
  assert (B : Qle_bool (s / Qnat d) c = Qle_bool (s' / Qnat d) c) by (rewrite E; reflexivity). rewrite B, IH. reflexivity.
Qed.
Lemma subdivide_comp : forall a a' s s' d, a == a' -> s == s' -> Forall2 Qeq (subdivide a s d) (subdivide a' s' d).
Proof. intros a a' s s' d A S0. unfold subdivide. induction (seq 1 (d - 1)) as [|k t IH]; cbn [map]; constructor; auto. rewrite A, S0. reflexivity. Qed.
Lemma secondary_comp : forall z z' c, Forall2 Qeq z z' ->
  match secondary z c, secondary z' c with Some r, Some r' => Forall2 Qeq r r' | None, None => True | _, _ => False end.
Proof.
  intros z z' c F. induction F as [|a a' t t' E F IH]; [cbn; constructor|]. destruct F as [|b b' t t' E' F]; [cbn; constructor|].
  rewrite !secondary_cons2. rewrite (divider_comp (a - b) (a' - b') c) by (rewrite E, E'; reflexivity). destruct (divider (a' - b') c); [|exact Logic.I].
  destruct (secondary (b :: t) c), (secondary (b' :: t') c); try contradiction; auto. apply Forall2_app; [apply subdivide_comp; [exact E|rewrite E, E'; reflexivity]|exact IH].
Qed.
Lemma contains_comp : forall l l', Forall2 Qeq l l' -> forall x, contains l x <-> contains l' x.
Proof. intros l l' F x. induction F as [|a a' t t' E F IH]; [reflexivity|]. rewrite !contains_cons, IH, E. reflexivity. Qed.
Lemma unique_comp : forall l l', Forall2 Qeq l l' -> Forall2 Qeq (unique_desc l) (unique_desc l').
Proof. intros l l' F. apply desc_unique; try apply unique_desc_desc. intros x. rewrite !unique_desc_contains. apply contains_comp. exact F. Qed.

Lemma mesh_comp : forall p b s s' x x' c m m', (forall z, contains (primary p b s x) z <-> contains (primary p b s' x') z) ->
  mesh p b s x c = Some m -> mesh p b s' x' c = Some m' -> Forall2 Qeq m m'.
Proof.
  intros p b s s' x x' c m m' H. assert (F : Forall2 Qeq (primary p b s x) (primary p b s' x')) by (apply desc_unique; auto using primary_desc).
  unfold mesh. pose proof (secondary_comp _ _ c F) as G. destruct (secondary (primary p b s x) c), (secondary (primary p b s' x') c); try contradiction; try discriminate.
  intros E E'. injection E as <-. injection E' as <-. apply unique_comp. apply Forall2_app; assumption.
Qed.
Lemma nodes_comp : forall m m', Forall2 Qeq m m' -> nodes_of m = nodes_of m'.
Proof. intros m m' F. unfold nodes_of. induction F as [|a a' t t' E F IH]; cbn [map]; [reflexivity|]. rewrite IH, (round4_comp a a' E). reflexivity. Qed.
Lemma elements_comp : forall m m', Forall2 Qeq m m' -> elements_of m = elements_of m'.
Proof.
  intros m m' F. unfold elements_of.
  assert (G : forall u u' v v', Forall2 Qeq u u' -> Forall2 Qeq v v' -> map (fun e => (round4 (fst e), round4 (snd e))) (combine u v) = map (fun e => (round4 (fst e), round4 (snd e))) (combine u' v')).
  { intros u u' v v' A. revert v v'. induction A as [|a a' t t' E A IH]; intros v v' B; [reflexivity|]. destruct B as [|h h' v v' E' B]; [reflexivity|]. cbn [combine map fst snd]. rewrite (IH _ _ B), (round4_comp _ _ E), (round4_comp _ _ E'). reflexivity. }
  apply G.
  - induction F as [|a a' t t' E F IH]; [constructor|]. destruct F as [|h h' t t' E' F]; cbn [removelast]; [constructor|]. constructor; [exact E|exact IH].
  - destruct F; [constructor|exact F].
Qed.

(** ** Stress *)
Lemma cumsum_comp : forall l l' a a', a == a' -> Forall2 nan_eq l l' -> Forall2 nan_eq (cumsum a l) (cumsum a' l').
Proof.
  intros l l' a a' E F. revert a a' E. induction F as [|v v' t t' E0 F IH]; intros a a' E; cbn [cumsum]; [constructor|].
  destruct v as [v|], v' as [v'|]; cbn [nan_eq] in E0; try contradiction; constructor; cbn [nan_eq]; auto.
  - rewrite E, E0. reflexivity.
  - apply IH. rewrite E, E0. reflexivity.
Qed.
Lemma removelast_comp : forall A (P : A -> A -> Prop) l l', Forall2 P l l' -> Forall2 P (removelast l) (removelast l').
Proof. intros A P l l' F. induction F as [|a a' t t' E F IH]; [constructor|]. destruct F as [|h h' t t' E' F]; cbn [removelast]; [constructor|]. constructor; [exact E|exact IH]. Qed.
Lemma firstn_comp : forall A (P : A -> A -> Prop) k l l', Forall2 P l l' -> Forall2 P (firstn k l) (firstn k l') /\ Forall2 P (skipn k l) (skipn k l').
Proof. intros A P k. induction k as [|k IH]; intros l l' F; cbn [firstn skipn]; [split; [constructor|exact F]|]. destruct F as [|a a' t t' E F]; [split; constructor|]. destruct (IH _ _ F) as [A1 A2]. split; [constructor; auto|exact A2]. Qed.
Lemma insert_comp : forall A (P : A -> A -> Prop) k v l l', P v v -> Forall2 P l l' -> Forall2 P (insert_at k v l) (insert_at k v l').
Proof. intros A P k v l l' R F. destruct (firstn_comp A P k l l' F) as [A1 A2]. unfold insert_at. apply Forall2_app; [exact A1|constructor; [exact R|exact A2]]. Qed.
Lemma nth_comp : forall l l' i, Forall2 nan_eq l l' -> nan_eq (nth i l None) (nth i l' None).
Proof. intros l l' i F. revert i. induction F as [|a a' t t' E F IH]; intros [|i]; cbn [nth]; auto; exact Logic.I. Qed.
Lemma last_comp : forall l l', Forall2 nan_eq l l' -> nan_eq (last l None) (last l' None).
Proof. intros l l' F. induction F as [|a a' t t' E F IH]; [exact Logic.I|]. destruct F as [|h h' t t' E' F]; [exact E|exact IH]. Qed.

Lemma stress_comp : forall ls ls' gr wt es, (forall e, In e es -> nan_eq (elem_weight ls wt e) (elem_weight ls' wt e)) ->
  match stress ls gr wt es, stress ls' gr wt es with
  | Ok sg, Ok sg' => Forall2 nan_eq (fst sg) (fst sg') /\ Forall2 nan_eq (snd sg) (snd sg')
  | Err e, Err e' => e = e' | _, _ => False
  end.
Proof.
  intros ls ls' gr wt es H. unfold stress.
  assert (F : Forall2 nan_eq (cumsum 0 (map (stress_increment ls wt) es)) (cumsum 0 (map (stress_increment ls' wt) es))).
  { apply cumsum_comp; [reflexivity|]. induction es as [|e t IH]; cbn [map]; [constructor|]. constructor; [|apply IH; intros e' I; apply H; right; exact I].
    specialize (H e (or_introl eq_refl)). unfold stress_increment. destruct (elem_weight ls wt e), (elem_weight ls' wt e); cbn [nan_eq option_map] in *; try contradiction; auto. rewrite H. reflexivity. }
  destruct (where_eq 0 gr es) as [|k [|]]; cbn [fst snd]; auto. split; [|exact F]. apply insert_comp; [reflexivity|]. apply removelast_comp. exact F.
Qed.
