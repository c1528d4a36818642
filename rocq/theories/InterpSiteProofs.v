(** The springs of a soundly described site are in order. *)
From Coq Require Import List Bool Arith ZArith QArith Qabs Qminmax Reals Qreals Permutation Lia Lqa Lra.
From Verif Require Import Base LinAlg BCModel PileModel PileSpec MeshModel MeshSpec ConicSpec StressModel StressSpec StressProofs StressProps BeamModel SolveModel SpringModel WinklerModel
  CreateModel WholeModel WholeSpec WholeProofs AxialModel AxialSpec LateralModel LateralSpec LateralProofs LateralProps MomentProofs StartProofs
  CapacityModel CapacitySpec FullModel FullSpec FullProofs SiteProofs SpringSpec SpringProofs SolveSpec SolveProofs WinklerProofs SpringProper InterpModel InterpSpec InterpProofs InterpFullModel AnalysisProofs FullProps.
Import ListNotations SpringModel.
Local Open Scope Q_scope.

Lemma lateral_ordered : forall c, lateral_shape c -> c <> [] /\ ordered c.
Proof.
  intros c (L & _ & _ & OR & _). split; [intros ->; discriminate|]. apply ordered_nth. intros i j I J. apply OR. rewrite L in J. lia.
Qed.
Lemma axial_ordered : forall c, axial_shape c -> c <> [] /\ ordered (rev c).
Proof.
  intros c (L & _ & _ & OR). split; [intros ->; discriminate|]. apply ordered_nth. intros i j I J. rewrite rev_length in J. rewrite !rev_nth by lia. apply OR. lia.
Qed.
Lemma mt_in_order : forall cols, usable_mt cols -> rotations_in_order cols 15.
Proof.
  intros cols (L & C & OR & _). split; [intros col I; apply C; exact I|]. split; [intros col q I J; apply (proj2 (C col I) q J)|]. intros i j k I J. apply OR. rewrite L in J. lia.
Qed.
Lemma nd_nth : forall l, (forall i j, (i <= j)%nat -> (j < length l)%nat -> nth i l 0 <= nth j l 0) -> SpringSpec.nondecreasing l.
Proof.
  induction l as [|a l IH]; intros H; [exact Logic.I|]. destruct l as [|b l]; [exact Logic.I|]. split; [apply (H 0%nat 1%nat); cbn; lia|]. apply IH. intros i j I J. apply (H (S i) (S j)); cbn in *; lia.
Qed.

Lemma ok_two : forall A B (a c : A) (b d : B), Ok (a, b) = Ok (c, d) -> a = c /\ b = d.
Proof. intros A B a c b d E. inversion E. auto. Qed.

(** The moments of the clay models do not depend on the lateral resistance. *)
Lemma clay_rows : forall md u idx q ymax T M, match md with API_clay _ _ _ _ _ _ _ | Modified_Matlock_clay _ _ _ _ _ _ _ => True | _ => False end ->
  mt_spring_fct md u idx q ymax 15 = Ok (T, map (map Some) M) -> exists t v, T = repeat t 15 /\ M = repeat v 15.
Proof.
  assert (G : forall md u idx q ymax T M S pm tm, mt_spring_fct md u idx q ymax 15 = inside_layer q (bind (bind (value S q) (fun Su => let '(z, tz) := tz_api_clay u idx (q_sig q) Su (q_D q) 1 1 1 15 in
      Ok (repeat (api_rotation (q_D q) 15 z) 15, repeat (map Some (api_moment (q_D q) 15 tz 1)) 15))) (fun c => Ok (scaled_rows tm pm c))) ->
    mt_spring_fct md u idx q ymax 15 = Ok (T, map (map Some) M) -> exists t v, T = repeat t 15 /\ M = repeat v 15).
  { intros md u idx q ymax T M S pm tm -> E. unfold inside_layer in E. destruct (Rlt_dec _ _); [discriminate|]. destruct (value S q) as [Su|]; [|discriminate]. cbn [bind] in E.
    destruct (tz_api_clay u idx (q_sig q) Su (q_D q) 1 1 1 15) as [z tz]. set (RT := repeat (api_rotation (q_D q) 15 z) 15) in E. set (RM := repeat (map Some (api_moment (q_D q) 15 tz 1)) 15) in E. cbn [bind] in E. unfold scaled_rows in E. cbn [fst snd] in E. apply ok_two in E. destruct E as [E1 E2].
    assert (RP : forall A B (h : A -> B) a k, map h (repeat a k) = repeat (h a) k) by (intros A B h a k; induction k as [|k IH]; cbn; [reflexivity|rewrite IH; reflexivity]).
    unfold RT in E1. unfold RM in E2. clear RT RM. rewrite RP in E1, E2. exists (map (fun v => v * tm)%R (api_rotation (q_D q) 15 z)), (nth 0 M []). split; [symmetry; exact E1|].
    assert (LM : length M = 15%nat) by (rewrite <- (map_length (map Some) M), <- E2; apply repeat_length).
    assert (IN : forall (a b : list R), map Some a = map Some b -> a = b) by (induction a as [|x a IH]; intros [|y b] X; try discriminate; [reflexivity|]; injection X as -> X; f_equal; auto).
    apply nth_ext with (d := []) (d' := []); [rewrite repeat_length; exact LM|]. intros k0 Hn. rewrite LM in Hn. rewrite nth_repeat_lt by exact Hn. apply IN.
    assert (N : forall k, (k < 15)%nat -> map Some (nth k M []) = map (option_map (fun v => (v * pm)%R)) (map Some (api_moment (q_D q) 15 tz 1))).
    { intros k K. change (@nil R) with (@nil R) at 1. transitivity (nth k (map (map Some) M) (map Some [])); [symmetry; apply map_nth|]. rewrite <- E2.
      transitivity (nth k (repeat (map (option_map (fun v : R => (v * pm)%R)) (map Some (api_moment (q_D q) 15 tz 1))) 15) (map Some [])); [reflexivity|]. apply nth_repeat_lt. exact K. }
    rewrite (N k0 Hn), (N 0%nat ltac:(lia)). reflexivity. }
  intros md u idx q ymax T M HM E. destruct md; try contradiction; (eapply G; [|exact E]; reflexivity).
Qed.

Lemma springs_in_order : forall rnd ch sort o sections gr wt ys x c p t b m B ks mc, storage rnd -> fair_chance ch -> (forall rows, ascending_of (sort rows) rows) ->
  sound_site o sections gr wt ys x c p t b m -> construct rnd ch sort o sections gr wt ys x c = Ok (Some B) ->
  searchable (stiffness_model o p m ks mc (springs_of (b_made B))).
Proof.
  intros rnd ch sort o sections gr wt ys x c p t b m B ks mc ST FC SO SS CB.
  destruct (C104_constructed rnd ch sort o sections gr wt ys x c p t b m ST FC SO SS) as (st & MD & CO & _ & US).
  assert (EB : springs_of (b_made B) = springs_of MD) by (replace B with (mkBuilt p m st MD) by congruence; reflexivity).
  destruct (C104_springs_of_models rnd ch sort o sections gr wt ys x c p t b m B ST FC SO SS CB) as (OW & _). rewrite EB in *. set (g := springs_of MD) in *. clear EB CO CB. clearbody g.
  destruct US as (U1 & U2 & U3 & U4 & U5 & U6). unfold stiffness_model, soil_model, when_on. constructor; cbn [w_py w_tz w_mt w_hb w_mb w_qz w_n].
  - intros py e j E _ _. destruct (on_py o); [|discriminate]. injection E as <-. apply lateral_ordered, U1.
  - intros tz e j E _ _. destruct (on_tz o); [|discriminate]. injection E as <-. apply axial_ordered, U2.
  - intros py mt e j EP EM He Hj. destruct (on_py o) eqn:ON; [|discriminate]. destruct (on_mt o) eqn:OM; [|discriminate]. injection EP as <-. injection EM as <-.
    assert (LP : length (map snd (g_py g e j)) = 15%nat) by (rewrite map_length; apply (U1 e j)). unfold searchable_mt. rewrite LP. split; [apply mt_in_order, U3|]. split; [intros Z; rewrite Z in LP; discriminate|].
    assert (NS : (forall col, In col (g_mt g e j) -> no_spring col) -> forall col, In col (g_mt g e j) -> even_column col).
    { intros N col I q q' IQ IQ'. destruct (N col I) as (_ & Z). rewrite (Z q IQ), (Z q' IQ'). split; reflexivity. }
    specialize (OW e j He Hj). unfold own_springs in OW. cbv zeta in OW. set (el := nth e (elements_of m) (0, 0)) in *. set (z := if Nat.eqb j 0 then fst el else snd el) in *.
    destruct OW as [(_ & _ & N & _)|(BE & y & s & OWN & NB & PY & MT & _)]; [right; apply NS; exact N|].
    destruct (proj2 (OWN y) eq_refl) as (IY & LB & LT).
    destruct (y_lat y) as [md|] eqn:EM; cbn [given] in PY, MT; [|right; apply NS; exact MT].
    rewrite OM in MT. destruct (nth 2 (spring_signature md) false) eqn:SG; cbn [andb] in MT; [|right; apply NS; exact MT].
    assert (CL : (match md with API_clay _ _ _ _ _ _ _ | Modified_Matlock_clay _ _ _ _ _ _ _ => True | _ => False end) \/ LateralProofs.hardening md).
    { clear - SG. destruct md; try (right; exact Logic.I); try discriminate SG; left; exact Logic.I. }
    destruct CL as [CL|HD].
    + right. destruct MT as (u & idx & _ & T & M & E & LC & PT). destruct (clay_rows _ _ _ _ _ _ _ CL E) as (tr & vr & -> & ->).
      intros col I q q' IQ IQ'. apply In_nth with (d := []) in I. destruct I as (k & Hk & <-). pose proof (nth_In _ [] Hk) as Ik. rewrite LC in Hk.
      destruct (U3 e j) as (_ & C15 & _). assert (L15 : length (nth k (g_mt g e j) []) = 15%nat) by (apply C15; exact Ik).
      apply In_nth with (d := (0, 0)) in IQ. apply In_nth with (d := (0, 0)) in IQ'. destruct IQ as (i & Hi & <-), IQ' as (i' & Hi' & <-). assert (Hi15 : (i < 15)%nat) by (rewrite <- L15; exact Hi). assert (Hi15' : (i' < 15)%nat) by (rewrite <- L15; exact Hi'). clear Hi Hi'.
      pose proof (PT k i Hk Hi15) as E1. pose proof (PT k i' Hk Hi15') as E2. rewrite !nth_repeat_lt in E1, E2 by assumption. rewrite <- E2 in E1. assert (X : forall a a' : Q * Q, a = a' -> fst a == fst a' /\ snd a == snd a') by (intros a a' ->; split; reflexivity). apply X. exact E1.
    + left. assert (SG0 : nth 0 (spring_signature md) false = true) by (destruct md; reflexivity). rewrite ON, SG0 in PY. cbn [andb] in PY. destruct PY as (u & U & yy & pp & E & L15 & PT).
      assert (NE : nth_error (elements_of m) e = Some el) by (apply nth_error_nth'; exact He).
      destruct (meshed_sections _ _ _ _ _ _ _ _ (si_mesh _ _ _ _ _ _ _ _ _ _ _ SS) e el NE) as [LE _].
      assert (BZ0 : b <= snd el) by (apply (element_above_tip _ _ _ _ _ _ _ _ _ _ _ e el SS NE)).
      destruct (si_stack _ _ _ _ _ _ _ _ _ _ _ SS) as (d & PD & ES & _).
      assert (TG : l_top (y_layer y) <= gr) by (apply (exact_tops d gr _ ES), (Permutation_in _ PD), in_map, IY).
      assert (ZZ : snd el <= z /\ z <= fst el) by (unfold z; destruct (Nat.eqb j 0); split; Lqa.lra).
      assert (WI : within (y_layer y) z) by (split; Lqa.lra). assert (BZ : b <= z) by Lqa.lra. assert (IS : In s sections) by apply NB.
      destruct (so_py _ _ _ _ _ _ (si_soil _ _ _ _ _ _ _ _ _ _ _ SS) y md s z ON IY EM IS WI BZ) as (A1 & A2 & A3).
      set (q := spot (map y_layer ys) gr wt b (y_layer y) z (gr - z) (s_width s)) in *.
      assert (G : good_place q).
      { constructor.
        - change (0 < Q2R (l_top (y_layer y) - l_bottom (y_layer y)))%R. apply Q2R_lt0. destruct WI. Lqa.lra.
        - change (0 <= Q2R (l_top (y_layer y) - z) <= Q2R (l_top (y_layer y) - l_bottom (y_layer y)))%R. split; [apply Q2R_le0; destruct WI; Lqa.lra|apply Qle_Rle; destruct WI; Lqa.lra].
        - change (0 < Q2R (s_width s))%R. apply Q2R_lt0. apply (md_stiff _ _ _ _ _ _ _ _ (si_mesh _ _ _ _ _ _ _ _ _ _ _ SS) s IS).
        - change (0 <= Q2R (overburden (map y_layer ys) wt z))%R. apply Q2R_le0. apply (C20_overburden_grows_with_depth _ wt z z); [|apply Qle_refl]. intros l0 I0. apply in_map_iff in I0. destruct I0 as (y0 & <- & I0). apply (si_weight _ _ _ _ _ _ _ _ _ _ _ SS y0 I0).
        - change (0 <= Q2R (gr - z))%R. apply Q2R_le0. destruct WI. Lqa.lra. }
      destruct (C68_py_springs_partial md u q 0 15 U G A1 ltac:(lra) ltac:(lia) A2 A3) as (yy' & pp' & E' & SC & ND). specialize (ND HD).
      assert (EQ : pp' = pp). { rewrite E in E'. injection E' as _ X. clear - X. revert pp' X. induction pp as [|a l IH]; intros [|a' l'] X; try discriminate; [reflexivity|]. injection X as -> X. f_equal. symmetry. rewrite (IH l' X). reflexivity. }
      subst pp'. assert (LL : length pp = 15%nat) by apply SC. destruct ST as (MO & _). apply nd_nth. intros i i' I J. rewrite LP in J. change 0 with (snd (0, 0)) at 1 2. rewrite !map_nth, !PT by lia. cbn [snd]. apply MO. apply ND; lia.
  - intros c0 E. destruct (on_hb o); [|discriminate]. injection E as <-. apply lateral_ordered, U4.
  - intros c0 E. destruct (on_mb o); [|discriminate]. injection E as <-. apply lateral_ordered, U5.
  - intros c0 E. destruct (on_qz o); [|discriminate]. injection E as <-. apply axial_ordered, U6.
Qed.
