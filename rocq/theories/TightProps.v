(** Further statements about C68, C69 and C104: what a multiplier function is given, which springs a soil model has, and what
    happens when a spring function raises. *)
From Coq Require Import List Bool Arith ZArith QArith Qabs Reals Qreals Lia Lra.
From Verif Require ConicModel ConicProofs.
From Verif Require Import Base PileModel MeshModel StressModel StressSpec StressProps CreateModel CreateProps WholeSpec AxialModel LateralModel LateralSpec LateralProofs LateralProps CapacityModel FullModel FullSpec FullProps.
Import ListNotations.

Section Lateral.
Local Open Scope R_scope.

(** ** C68: which springs a lateral soil model has *)
Inductive kind_of_spring := PY | HB | MT | MB.
Definition has (m : lateral_model) (k : kind_of_spring) : bool := nth (match k with PY => 0 | HB => 1 | MT => 2 | MB => 3 end) (spring_signature m) false.
Definition pisa_model (m : lateral_model) : Prop :=
  match m with Bothkennar_clay _ _ _ | Cowden_clay _ _ _ | Dunkirk_sand _ _ _ | Custom_pisa_sand _ _ _ _ _ _ | Custom_pisa_clay _ _ _ _ _ _ _ => True | _ => False end.
Definition extended (m : lateral_model) : Prop := match m with API_sand _ _ _ _ e _ _ | API_clay _ _ _ _ e _ _ | Modified_Matlock_clay _ _ _ _ e _ _ => e = true | _ => False end.

Theorem C68_kinds_of_springs : forall m, has m PY = true /\ (has m HB = true <-> pisa_model m) /\ (has m MB = true <-> pisa_model m) /\ (has m MT = true <-> pisa_model m \/ extended m).
Proof.
  intros m. destruct m; cbn; try (match goal with |- context [?e = true] => is_var e; destruct e end); intuition (try discriminate; auto).
Qed.
Print Assumptions C68_kinds_of_springs.

(** A base spring a model does not have resists nothing. *)
Theorem C68_no_base_spring : forall m q ymax n, has m HB = false -> exists y y', Hb_spring_fct m q ymax n = Ok (y, repeat (Some 0) n) /\ Mb_spring_fct m q ymax n = Ok (y', repeat (Some 0) n) /\ length y = n /\ length y' = n.
Proof.
  intros m q ymax n H. destruct m; cbn in H; try discriminate; (eexists; eexists; split; [reflexivity|]; split; [reflexivity|]; split; apply ConicProofs.linspace_length).
Qed.
Print Assumptions C68_no_base_spring.

(** ** C69: a multiplier is a number, or a function called with the depth below the ground *)
Definition factor_is (m : multiplier) (X c : R) : Prop := match m with MNum v => c = v | MFun f => c = f X end.
Theorem C69_multiplier_functions : forall m u idx q ymax n pm ym, exists cp cy, factor_is pm (q_X q) cp /\ factor_is ym (q_X q) cy /\
  py_spring_fct (with_py pm ym m) u q ymax n = py_spring_fct (with_py (MNum cp) (MNum cy) m) u q ymax n /\
  (pisa_model m -> mt_spring_fct (with_mt pm ym m) u idx q ymax n = mt_spring_fct (with_mt (MNum cp) (MNum cy) m) u idx q ymax n).
Proof.
  intros m u idx q ymax n pm ym. exists (at_X pm (q_X q)), (at_X ym (q_X q)). split; [destruct pm; reflexivity|]. split; [destruct ym; reflexivity|].
  split; [destruct m; reflexivity|]. intros P. destruct m; try contradiction; reflexivity.
Qed.
Print Assumptions C69_multiplier_functions.
End Lateral.

(** ** C104: a spring function that raises stops the construction, so a constructed model keeps no failed spring *)
Local Open Scope Q_scope.
Definition sound_value (v : option stored_value) : Prop := forall e, v <> Some (Err e).

Lemma no_first_error : forall l, first_error l = None -> forall v, In v l -> forall e, v <> Err e.
Proof. induction l as [|[a|x] l IH]; intros H v I e; [destruct I| |discriminate]. destruct I as [<-|I]; [discriminate|]. apply IH; auto. Qed.

Definition clean (M : @made stored_value) : Prop :=
  (forall e j, (j < 2)%nat -> sound_value (m_py M e j) /\ sound_value (m_mt M e j) /\ sound_value (m_tz M e j)) /\ sound_value (m_hb M) /\ sound_value (m_mb M) /\ sound_value (m_qz M).

Lemma put_clean : forall (f : nat -> nat -> option stored_value) i (g : nat -> stored_value) e j, (j < 2)%nat -> sound_value (f e j) -> (forall x, g 0%nat <> Err x) -> (forall x, g 1%nat <> Err x) -> sound_value (put f i g e j).
Proof.
  intros f i g e j J F G0 G1 x. unfold put. destruct (Nat.eqb e i && (j <? 2)%nat); [|apply F]. intros H. injection H as H. destruct j as [|[|j]]; [apply (G0 x H)|apply (G1 x H)|lia].
Qed.

Lemma visit_clean : forall st li M, clean M -> (forall v, In v (calls_of st li) -> forall e, v <> Err e) -> clean (visit st li M).
Proof.
  intros st [sl i] M (C1 & C2 & C3 & C4) H. unfold calls_of in H.
  assert (HA : forall v, In v (match s_ax sl with None => [] | Some ax => (if distributed_axial st then [f_tz ax (shaft_args st (s_layer sl) i 0); f_tz ax (shaft_args st (s_layer sl) i 1)] else [])
                ++ (if tip_in st (s_layer sl) && base_axial st then [f_qz ax (base_args st (s_layer sl) i)] else []) end) -> forall e, v <> Err e) by (intros v I; apply H; apply in_or_app; left; exact I).
  assert (HL := fun v I => H v (in_or_app _ _ _ (or_intror I))). clear H.
  set (M1 := match s_ax sl with None => M | Some ax => {| m_py := m_py M; m_mt := m_mt M; m_tz := if distributed_axial st then put (m_tz M) i (fun j => f_tz ax (shaft_args st (s_layer sl) i j)) else m_tz M;
        m_hb := m_hb M; m_mb := m_mb M; m_qz := if tip_in st (s_layer sl) && base_axial st then Some (f_qz ax (base_args st (s_layer sl) i)) else m_qz M |} end).
  assert (K : clean M1).
  { unfold M1. destruct (s_ax sl) as [ax|]; [|split; auto]. split; cbn [m_py m_mt m_tz m_hb m_mb m_qz].
    - intros e j J. destruct (C1 e j J) as (P1 & P2 & P3). split; [exact P1|]. split; [exact P2|]. destruct (distributed_axial st); [|exact P3]. apply put_clean; auto; apply HA; cbn; auto.
    - split; [exact C2|]. split; [exact C3|]. destruct (tip_in st (s_layer sl) && base_axial st); [|exact C4]. intros e X. injection X as X. revert X. apply HA. apply in_or_app. right. left. reflexivity. }
  change (visit st (sl, i) M) with (match s_lat sl with None => M1 | Some la => {|
      m_py := if has_py la && distributed_lateral st then put (m_py M1) i (fun j => f_py la (shaft_args st (s_layer sl) i j)) else m_py M1;
      m_mt := if has_mt la && distributed_moment st then put (m_mt M1) i (fun j => f_mt la (shaft_args st (s_layer sl) i j)) else m_mt M1;
      m_tz := m_tz M1;
      m_hb := if tip_in st (s_layer sl) && (has_hb la && base_shear st) then Some (f_hb la (base_args st (s_layer sl) i)) else m_hb M1;
      m_mb := if tip_in st (s_layer sl) && (has_mb la && base_moment st) then Some (f_mb la (base_args st (s_layer sl) i)) else m_mb M1;
      m_qz := m_qz M1 |} end).
  destruct (s_lat sl) as [la|]; [|exact K]. destruct K as (K1 & K2 & K3 & K4). split; cbn [m_py m_mt m_tz m_hb m_mb m_qz].
  - intros e j J. destruct (K1 e j J) as (P1 & P2 & P3). split; [|split; [|exact P3]].
    + destruct (has_py la && distributed_lateral st); [|exact P1]. apply put_clean; auto; apply HL; cbn; auto.
    + destruct (has_mt la && distributed_moment st); [|exact P2]. apply put_clean; auto; apply HL; apply in_or_app; right; cbn; auto.
  - split; [|split; [|exact K4]].
    + destruct (tip_in st (s_layer sl) && (has_hb la && base_shear st)); [|exact K2]. intros e X. injection X as X. revert X. apply HL. do 2 (apply in_or_app; right). apply in_or_app. left. left. reflexivity.
    + destruct (tip_in st (s_layer sl) && (has_mb la && base_moment st)); [|exact K3]. intros e X. injection X as X. revert X. apply HL. do 3 (apply in_or_app; right). left. reflexivity.
Qed.

Lemma visits_clean : forall st l M, clean M -> (forall v, In v (flat_map (calls_of st) l) -> forall e, v <> Err e) -> clean (fold_left (fun m li => visit st li m) l M).
Proof.
  intros st. induction l as [|li l IH]; intros M C H; [exact C|]. cbn [fold_left]. apply IH; [apply visit_clean; auto; intros v I; apply H; cbn [flat_map]; apply in_or_app; left; exact I|].
  intros v I. apply H. cbn [flat_map]. apply in_or_app. right. exact I.
Qed.

Theorem C104_no_failed_spring : forall rnd ch sort o sections gr wt ys x c B, construct rnd ch sort o sections gr wt ys x c = Ok (Some B) ->
  (forall e j, (j < 2)%nat -> sound_value (m_py (b_made B) e j) /\ sound_value (m_mt (b_made B) e j) /\ sound_value (m_tz (b_made B) e j)) /\
  sound_value (m_hb (b_made B)) /\ sound_value (m_mb (b_made B)) /\ sound_value (m_qz (b_made B)).
Proof.
  intros rnd ch sort o sections gr wt ys x c B. unfold construct.
  destruct (make_pile sections) as [p|]; [|discriminate]. cbn [bind]. destruct (make_profile gr (map y_layer ys)) as [ls|]; [|discriminate]. cbn [bind].
  destruct (pile_length p) as [len|]; [|discriminate]. cbn [bind]. destruct (pile_bottom p) as [b|]; [|discriminate]. cbn [bind]. destruct (accept_model _ _ _ _) as [[]|]; [|discriminate]. cbn [bind].
  destruct (MeshModel.mesh p b (Some ls) x c) as [m|]; [|discriminate]. destruct (stress ls gr wt (elements_of m)) as [sg|]; [|discriminate]. cbn [bind].
  destruct (tip_area p) as [ta|]; [|discriminate]. cbn [bind]. destruct (tip_footprint p) as [fp|]; [|discriminate]. cbn [bind].
  unfold make_springs. destruct (first_error _) eqn:E; [discriminate|]. cbn [bind]. intros H. injection H as <-. cbn [b_made]. unfold create_springs. apply visits_clean.
  - unfold clean, sound_value. cbn. repeat split; discriminate.
  - apply no_first_error. exact E.
Qed.
Print Assumptions C104_no_failed_spring.

(** The exception is that of one of the calls. *)
Theorem C104_exception_of_a_call : forall st layers e, make_springs st layers = Err e -> exists li, In li (work st layers) /\ In (Err e) (calls_of st li).
Proof.
  intros st layers e. unfold make_springs. destruct (first_error _) as [e'|] eqn:E; [|discriminate]. intros H. injection H as ->.
  assert (G : forall l, first_error l = Some e -> In (Err e) l) by (induction l as [|[a|x] l IH]; cbn; intros X; [discriminate|right; auto|left; congruence]).
  apply G in E. apply in_flat_map in E. exact E.
Qed.
Print Assumptions C104_exception_of_a_call.

Example C104_clean_case : exists B, construct rnd0 ch0 sort0 all_on ex_l 0 (-1) soil0 [-1] 2 = Ok (Some B).
Proof.
  destruct C107_example as (ST & FC & SO & SS & _). destruct (C104_constructed rnd0 ch0 sort0 all_on ex_l 0 (-1) soil0 [-1] 2 ex_p 2 (-8) mesh1 ST FC SO SS) as (st & MD & CO & _). eauto.
Qed.

(** One element in one layer whose p-y function raises *)
Definition one_element : setting := {| distributed_lateral := true; distributed_moment := false; base_shear := false; base_moment := false; distributed_axial := false; base_axial := false;
  ground := 0; soil_bottom := -1; water := 0; tip := -1; elems := [(0, -1)]; sig_top := [Some 0]; sig_bottom := [Some 9]; width := fun _ => Some 1; outer := fun _ => Some 3; inner := fun _ => Some 3 |}.
Definition raising : @slayer stored_value := {| s_layer := mkLayer 0 (-1) 19; s_ax := None;
  s_lat := Some {| has_py := true; has_hb := false; has_mt := false; has_mb := false; f_py := fun _ => Err ValueError; f_mt := fun _ => Ok None; f_hb := fun _ => Ok None; f_mb := fun _ => Ok None |} |}.
Example C104_raising_case : make_springs one_element [raising] = Err ValueError.
Proof. reflexivity. Qed.
