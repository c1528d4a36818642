(** Lemmas for the axial capacity. *)
From Coq Require Import List Bool Arith ZArith QArith Qabs Reals Qreals Permutation Lia Lqa Lra.
From Verif Require Import Base PileModel PileSpec MeshModel MeshSpec StressModel StressSpec StressProps ShaftProofs GridProofs
  CreateModel CreateProofs CreateProps AxialModel AxialSpec AxialProofs AxialProps CapacityModel CapacitySpec.
Import ListNotations.
Local Open Scope R_scope.

(** ** Extremes of stored arrays *)
Lemma least_min : forall l x, is_min x l -> least l = x.
Proof.
  assert (LB : forall l, l <> [] -> In (least l) l /\ forall v, In v l -> least l <= v).
  { induction l as [|a t IH]; intros N; [congruence|]. destruct t as [|b t].
    - cbn. split; [auto|]. intros v [<-|[]]. lra.
    - destruct (IH ltac:(discriminate)) as [I B]. change (least (a :: b :: t)) with (Rmin a (least (b :: t))). split.
      + unfold Rmin. destruct (Rle_dec a (least (b :: t))); [left; auto|right; auto].
      + intros v [<-|V]; [apply Rmin_l|]. eapply Rle_trans; [apply Rmin_r|apply B; auto]. }
  intros l x [I B]. destruct (LB l ltac:(intros ->; contradiction)) as [I' B']. apply Rle_antisym; [apply B'; auto|apply B; auto].
Qed.

Lemma greatest_max : forall l x, is_max x l -> greatest l = x.
Proof.
  assert (LB : forall l, l <> [] -> In (greatest l) l /\ forall v, In v l -> v <= greatest l).
  { induction l as [|a t IH]; intros N; [congruence|]. destruct t as [|b t].
    - cbn. split; [auto|]. intros v [<-|[]]. lra.
    - destruct (IH ltac:(discriminate)) as [I B]. change (greatest (a :: b :: t)) with (Rmax a (greatest (b :: t))). split.
      + unfold Rmax. destruct (Rle_dec a (greatest (b :: t))); [right; auto|left; auto].
      + intros v [<-|V]; [apply Rmax_l|]. eapply Rle_trans; [apply B; auto|apply Rmax_r]. }
  intros l x [I B]. destruct (LB l ltac:(intros ->; contradiction)) as [I' B']. apply Rle_antisym; [apply B; auto|apply B'; auto].
Qed.

Lemma opposite_extremes : forall t p q, is_max p t -> is_min q t -> least (map Ropp t) = - p /\ greatest (map Ropp t) = - q.
Proof.
  intros t p q [P1 P2] [Q1 Q2]. split.
  - apply least_min. split; [apply in_map; auto|]. intros v V. apply in_map_iff in V. destruct V as (w & <- & W). specialize (P2 w W). lra.
  - apply greatest_max. split; [apply in_map; auto|]. intros v V. apply in_map_iff in V. destruct V as (w & <- & W). specialize (Q2 w W). lra.
Qed.

Lemma zeros_extremes : least (map Ropp (repeat 0 15)) = 0 /\ greatest (map Ropp (repeat 0 15)) = 0.
Proof.
  assert (A : forall v, In v (repeat 0 15) -> v = 0) by (intros v V; apply repeat_spec in V; auto).
  destruct (opposite_extremes (repeat 0 15) 0 0) as [B C].
  - split; [left; auto|]. intros v V. rewrite (A v V). lra.
  - split; [left; auto|]. intros v V. rewrite (A v V). lra.
  - rewrite B, C. lra.
Qed.

(** ** Rationals in the reals *)
Lemma Q2R_0 : Q2R 0 = 0.
Proof. unfold Q2R. cbn. lra. Qed.
Lemma Q2R_pos : forall x, (0 < x)%Q -> 0 < Q2R x.
Proof. intros x H. rewrite <- Q2R_0. apply Qlt_Rlt. exact H. Qed.
Lemma Q2R_nn : forall x, (0 <= x)%Q -> 0 <= Q2R x.
Proof. intros x H. rewrite <- Q2R_0. apply Qle_Rle. exact H. Qed.

(** ** Spring curves of a layer *)
Definition fair (d : draw) : Prop := forall m a, (forall i, 0 <= fst (d m a) i < 1) /\
  argsort (match m with Clay _ => clay_backbone_z (fst (d m a)) 15 | Sand _ => sand_backbone_z (fst (d m a)) 15 end) (snd (d m a)).
Definition fair_tip (d : draw) : Prop := forall m a, (forall i, 0 <= fst (d m a) i < 1) /\ argsort (tip_backbone_z (fst (d m a)) 15) (snd (d m a)).

Lemma between_pos : forall t b f, 0 <= f <= 1 -> 0 < t -> 0 < b -> 0 < between t b f.
Proof. intros t b f [A B] T U. unfold between. replace (t + (b - t) * f) with (t * (1 - f) + b * f) by ring.
  destruct (Rle_lt_or_eq_dec 0 f A) as [L|<-]; [|nra]. assert (0 <= t * (1 - f)) by (apply Rmult_le_pos; lra). assert (0 < b * f) by (apply Rmult_lt_0_compat; auto). lra. Qed.

Lemma between_range : forall lo hi t b f, 0 <= f <= 1 -> lo <= t < hi -> lo <= b < hi -> lo <= between t b f < hi.
Proof.
  intros lo hi t b f F [T1 T2] [B1 B2]. unfold between. destruct (Rle_dec t b).
  - split; [nra|]. apply Rle_lt_trans with b; [nra|auto].
  - split; [nra|]. apply Rle_lt_trans with t; [nra|auto].
Qed.

Lemma friction_nonneg : forall m sig f, admissible m -> 0 <= sig -> 0 <= f <= 1 -> 0 <= unit_friction m sig f.
Proof.
  intros [c|s] sig f A S F; cbn [unit_friction admissible] in *.
  - destruct A as (_ & _ & _ & T & B & _). pose proof (between_pos _ _ f F T B). unfold clay_friction. apply Rmin_glb; [|lra].
    apply Rmult_le_pos; [lra|]. match goal with |- context [Rle_dec ?a ?b] => destruct (Rle_dec a b) end; left; apply Rmult_lt_0_compat; apply exp_pos.
  - destruct A as (_ & K & _ & T & B & _). apply (C50_sand_friction sig _ (sa_K s) S (between_range 0 90 _ _ f F T B) K).
Qed.

Lemma line_nonneg : forall comp m sig f co ci, admissible m -> 0 <= sig -> 0 <= f <= 1 -> 0 <= co -> 0 <= ci -> 0 <= line_capacity comp m sig f co ci.
Proof.
  intros comp m sig f co ci A S F C D. pose proof (friction_nonneg m sig f A S F) as N. unfold line_capacity.
  assert (T : 0 <= friction_factor m /\ 0 <= tension_factor m).
  { unfold friction_factor, tension_factor, factor. destruct m as [c|s]; cbn in A; destruct A as ((t & z & -> & _ & P & _) & A); tauto. }
  destruct T as [T U]. repeat apply Rmult_le_pos; auto.
  - destruct comp; [lra|auto].
  - unfold sliding_perimeter. destruct (plugged comp (soil_plug m)); lra.
Qed.

(** Clay without stress counts as under 1 Pa *)
Lemma clay_tz_ground : forall c u idx ci co h d D n, clay_tz c u idx ci co 0 h d D n = clay_tz c u idx ci co 0.001 h d D n.
Proof.
  intros. unfold clay_tz, tz_api_clay. assert (E : forall Su, fmax_api_clay 0 Su 1 = fmax_api_clay 0.001 Su 1).
  { intros Su. unfold fmax_api_clay. destruct (Req_EM_T 0 0) as [_|]; [|lra]. destruct (Req_EM_T 0.001 0); [lra|reflexivity]. }
  destruct (at_depth _ _ _ _) as [Su|]; cbn [bind]; [|reflexivity]. rewrite E. reflexivity.
Qed.

Lemma curve_extremes : forall d m a sig D co, fair d -> admissible m -> a_sig a = Some sig -> a_D a = Some D -> a_perim a = Some co -> a_perim_in a = Some co ->
  (0 <= sig)%Q -> (0 < D)%Q -> (0 < co)%Q -> (0 < a_height a)%Q -> (0 <= a_depth a)%Q -> (a_depth a <= a_height a)%Q ->
  exists z t, tz_curve d m a = Ok (Some (z, t)) /\
    is_max (line_capacity true m (Q2R sig) (Q2R (a_depth a / a_height a)) (Q2R co) (Q2R co)) t /\
    is_min (- line_capacity false m (Q2R sig) (Q2R (a_depth a / a_height a)) (Q2R co) (Q2R co)) t.
Proof.
  intros d m a sig D co FD A ES ED EC EI S0 D0 C0 H0 P0 P1. unfold tz_curve. rewrite ES, ED, EC, EI.
  destruct (FD m a) as [FU FA]. destruct (d m a) as [u idx]. cbn [fst snd] in FU, FA.
  apply Q2R_nn in S0. apply Q2R_pos in D0, C0.
  assert (HN : Q2R (a_height a) <> 0) by (apply Q2R_pos in H0; lra).
  assert (FR : Q2R (a_depth a / a_height a) = Q2R (a_depth a) / Q2R (a_height a)) by (apply Q2R_div; Lqa.lra).
  assert (F01 : 0 <= Q2R (a_depth a / a_height a) <= 1).
  { rewrite FR. apply Q2R_pos in H0. apply Q2R_nn in P0. apply Qle_Rle in P1. split.
    - apply Rmult_le_pos; [auto|]. left. apply Rinv_0_lt_compat; auto.
    - apply Rmult_le_reg_r with (Q2R (a_height a)); auto. unfold Rdiv. rewrite Rmult_assoc, Rinv_l by auto. lra. }
  assert (BE : forall t b, t + (b - t) * Q2R (a_depth a) / Q2R (a_height a) = between t b (Q2R (a_depth a / a_height a))) by (intros; rewrite FR; unfold between, Rdiv; ring).
  assert (PE : forall p, plugged true p = in_compression p) by (intros []; reflexivity).
  assert (PT : forall p, sliding_perimeter (plugged false p) (Q2R co) (Q2R co) = if in_tension p then Q2R co else Q2R co + Q2R co) by (intros []; reflexivity).
  unfold line_capacity, friction_factor, tension_factor. rewrite PE, PT. destruct m as [c|s]; cbn [soil_plug unit_friction].
  - cbn [admissible] in A. destruct A as ((tm & zm & ET & EZ & T0 & Z0) & R0 & U0 & St & Sb & _).
    pose proof (between_pos _ _ _ F01 St Sb) as SP. rewrite ET. cbn [factor].
    set (sg := if Req_EM_T (Q2R sig) 0 then 0.001 else Q2R sig).
    assert (SG : 0 < sg) by (unfold sg; destruct (Req_EM_T (Q2R sig) 0); lra).
    assert (EQ : clay_tz c u idx (Q2R co) (Q2R co) (Q2R sig) (Q2R (a_height a)) (Q2R (a_depth a)) (Q2R D) 15 = clay_tz c u idx (Q2R co) (Q2R co) sg (Q2R (a_height a)) (Q2R (a_depth a)) (Q2R D) 15).
    { unfold sg. destruct (Req_EM_T (Q2R sig) 0) as [->|]; [apply clay_tz_ground|reflexivity]. }
    rewrite EQ. destruct (clay_tz_extremes c u idx (Q2R co) (Q2R co) sg (Q2R (a_height a)) (Q2R (a_depth a)) (Q2R D) 15 tm zm (between (ca_Su_top c) (ca_Su_bottom c) (Q2R (a_depth a / a_height a))))
      as (z & t & E & _ & _ & _ & X1 & X2); auto; try lra.
    rewrite E. cbn [some_values]. exists z, t. split; [reflexivity|]. split; [rewrite Rmult_1_r; exact X1|exact X2].
  - cbn [admissible] in A. destruct A as ((tm & zm & ET & EZ & T0 & Z0) & K0 & U0 & Dt & Db & _).
    rewrite ET. cbn [factor].
    destruct (sand_tz_extremes s u idx (Q2R co) (Q2R co) (Q2R sig) (Q2R (a_height a)) (Q2R (a_depth a)) 15 tm zm (between (sa_delta_top s) (sa_delta_bottom s) (Q2R (a_depth a / a_height a))))
      as (z & t & E & _ & _ & _ & X1 & X2); auto; try lra.
    { apply between_range; auto. }
    rewrite E. cbn [some_values]. exists z, t. split; [reflexivity|]. split; [rewrite Rmult_1_r; exact X1|exact X2].
Qed.

(** ** Summation *)
Lemma Rsum_shift : forall (f : nat -> R) n, Rsum (map f (seq 0 (S n))) = f 0%nat + Rsum (map (fun k => f (S k)) (seq 0 n)).
Proof. intros f n. cbn [seq map Rsum fold_right]. f_equal. rewrite <- seq_shift, map_map. reflexivity. Qed.

Fixpoint wsum (cap : nat -> nat -> R) (i : nat) (infl : list Q) : R :=
  match infl with
  | it :: ((ib :: _) as t) => Q2R it * cap i 0%nat + Q2R ib * cap i 1%nat + wsum cap (S i) t
  | _ => 0
  end.

Lemma shaft_from_sum : forall (M : @made values) n (cc ct : nat -> nat -> R),
  (forall i j, (i < n)%nat -> (j < 2)%nat -> exists l, stored (m_tz M i j) = Ok (Some l) /\ least l = - cc i j /\ greatest l = ct i j /\ 0 <= cc i j /\ 0 <= ct i j) ->
  forall infl i, (forall x, In x infl -> (0 <= x)%Q) -> (i + length infl <= S n)%nat -> shaft_from M i infl = Ok (Some (wsum cc i infl, wsum ct i infl)).
Proof.
  intros M n cc ct H. induction infl as [|it t IH]; intros i P L; [reflexivity|]. destruct t as [|ib t]; [reflexivity|].
  change (shaft_from M i (it :: ib :: t)) with (both (fun x y : R * R => (fst x + fst y, snd x + snd y)) (element_shaft (m_tz M i 0) (m_tz M i 1) (Q2R it) (Q2R ib)) (shaft_from M (S i) (ib :: t))).
  cbn [length] in *. rewrite IH; [|intros; apply P; right; auto|lia].
  destruct (H i 0%nat ltac:(lia) ltac:(lia)) as (l0 & E0 & A0 & B0 & C0 & D0). destruct (H i 1%nat ltac:(lia) ltac:(lia)) as (l1 & E1 & A1 & B1 & C1 & D1).
  unfold element_shaft, both at 2. rewrite E0, E1. cbn [bind]. unfold both. cbn [bind fst snd].
  assert (P0 : 0 <= Q2R it) by (apply Q2R_nn, P; left; auto). assert (P1 : 0 <= Q2R ib) by (apply Q2R_nn, P; right; left; auto).
  change (wsum cc i (it :: ib :: t)) with (Q2R it * cc i 0%nat + Q2R ib * cc i 1%nat + wsum cc (S i) (ib :: t)).
  change (wsum ct i (it :: ib :: t)) with (Q2R it * ct i 0%nat + Q2R ib * ct i 1%nat + wsum ct (S i) (ib :: t)).
  rewrite A0, A1, B0, B1. assert (0 <= Q2R it * cc i 0%nat) by (apply Rmult_le_pos; auto). assert (0 <= Q2R ib * cc i 1%nat) by (apply Rmult_le_pos; auto).
  assert (0 <= Q2R it * ct i 0%nat) by (apply Rmult_le_pos; auto). assert (0 <= Q2R ib * ct i 1%nat) by (apply Rmult_le_pos; auto).
  rewrite (Rabs_left1 (- cc i 0%nat * Q2R it + - cc i 1%nat * Q2R ib)) by lra. rewrite (Rabs_pos_eq (ct i 0%nat * Q2R it + ct i 1%nat * Q2R ib)) by lra.
  apply f_equal, f_equal, f_equal2; ring.
Qed.

(** Elements of a list of nodes *)
Fixpoint pairs (z : list Q) : list (Q * Q) := match z with a :: ((b :: _) as t) => (a, b) :: pairs t | _ => [] end.
Lemma elements_pairs : forall m, elements_of m = pairs (nodes_of m).
Proof.
  induction m as [|a t IH]; [reflexivity|]. destruct t as [|b t]; [reflexivity|]. rewrite elements_cons2, IH. reflexivity.
Qed.
Lemma pairs_length : forall z, length (pairs z) = (length z - 1)%nat.
Proof. induction z as [|a t IH]; [reflexivity|]. destruct t as [|b t]; [reflexivity|]. change (pairs (a :: b :: t)) with ((a, b) :: pairs (b :: t)). cbn [length] in *. rewrite IH. lia. Qed.

Lemma infl_length : forall r a b, length (infl_from (a :: b :: r)) = S (length r).
Proof. induction r as [|c r IH]; intros a b; [reflexivity|]. change (infl_from (a :: b :: c :: r)) with ((Qabs ((c - a) / 2) / 2)%Q :: infl_from (b :: c :: r)). cbn [length]. rewrite IH. reflexivity. Qed.
Lemma half_nn : forall x, (0 <= Qabs x / 2)%Q.
Proof. intros x. unfold Qdiv. apply Qmult_le_0_compat; [apply Qabs_nonneg|discriminate]. Qed.
Lemma infl_nn : forall r a b x, In x (infl_from (a :: b :: r)) -> (0 <= x)%Q.
Proof.
  induction r as [|c r IH]; intros a b x.
  - intros [<-|[]]. apply half_nn.
  - change (infl_from (a :: b :: c :: r)) with ((Qabs ((c - a) / 2) / 2)%Q :: infl_from (b :: c :: r)). intros [<-|I]; [apply half_nn|eauto].
Qed.

Fixpoint tsum (cap : nat -> nat -> R) (i : nat) (z : list Q) : R :=
  match z with a :: ((b :: _) as t) => Q2R (a - b) * (cap i 0%nat + cap i 1%nat) / 2 + tsum cap (S i) t | _ => 0 end.
Fixpoint esum (cap : nat -> nat -> R) (i : nat) (z : list Q) : R :=
  match z with
  | a :: ((b :: r) as t) => match r with [] => 0 | c :: _ => (Q2R (b - c) - Q2R (a - b)) * (cap i 1%nat - cap (S i) 0%nat) / 4 + esum cap (S i) t end
  | _ => 0 end.

Lemma Q2R_half : forall x, Q2R (x * (1#2)) = Q2R x / 2.
Proof. intros. rewrite Q2R_mult. unfold Q2R at 2. cbn. lra. Qed.
Lemma Q2R_quarter : forall x, Q2R (x * (1#4)) = Q2R x / 4.
Proof. intros. rewrite Q2R_mult. unfold Q2R at 2. cbn. lra. Qed.

Lemma weighted_sum : forall cap r a b i X, (forall e, In e (pairs (a :: b :: r)) -> (snd e < fst e)%Q) ->
  wsum cap i (X :: infl_from (a :: b :: r)) = (Q2R X - Q2R (a - b) / 2) * cap i 0%nat + tsum cap i (a :: b :: r) + esum cap i (a :: b :: r).
Proof.
  intros cap. induction r as [|c r IH]; intros a b i X P.
  - assert (L : (b < a)%Q) by (apply (P (a, b)); left; auto). cbn [infl_from wsum tsum esum].
    rewrite (Qeq_eqR _ _ (half_abs a b L)), Q2R_half. lra.
  - assert (L : (b < a)%Q) by (apply (P (a, b)); left; auto). assert (L' : (c < b)%Q) by (apply (P (b, c)); right; left; auto).
    change (infl_from (a :: b :: c :: r)) with ((Qabs ((c - a) / 2) / 2)%Q :: infl_from (b :: c :: r)).
    change (wsum cap i (X :: (Qabs ((c - a) / 2) / 2)%Q :: infl_from (b :: c :: r))) with
      (Q2R X * cap i 0%nat + Q2R (Qabs ((c - a) / 2) / 2)%Q * cap i 1%nat + wsum cap (S i) ((Qabs ((c - a) / 2) / 2)%Q :: infl_from (b :: c :: r))).
    rewrite IH by (intros e E; apply P; right; auto).
    change (tsum cap i (a :: b :: c :: r)) with (Q2R (a - b) * (cap i 0%nat + cap i 1%nat) / 2 + tsum cap (S i) (b :: c :: r)).
    change (esum cap i (a :: b :: c :: r)) with ((Q2R (b - c) - Q2R (a - b)) * (cap i 1%nat - cap (S i) 0%nat) / 4 + esum cap (S i) (b :: c :: r)).
    rewrite (Qeq_eqR _ _ (quarter_abs a c ltac:(Lqa.lra))), Q2R_quarter, !Q2R_minus. field.
Qed.

Lemma tsum_trapezoids : forall z cap, tsum cap 0 z = trapezoids cap (pairs z).
Proof.
  assert (G : forall z cap i, tsum cap i z = trapezoids (fun k => cap (i + k)%nat) (pairs z)).
  { induction z as [|a t IH]; intros cap i; [reflexivity|]. destruct t as [|b t]; [reflexivity|].
    change (tsum cap i (a :: b :: t)) with (Q2R (a - b) * (cap i 0%nat + cap i 1%nat) / 2 + tsum cap (S i) (b :: t)).
    change (pairs (a :: b :: t)) with ((a, b) :: pairs (b :: t)). unfold trapezoids. cbn [length]. rewrite Rsum_shift. rewrite IH. f_equal.
    - unfold tall. cbn [nth fst snd]. rewrite Nat.add_0_r. reflexivity.
    - unfold trapezoids, tall. f_equal. apply map_ext. intros k. cbn [nth]. rewrite Nat.add_succ_r. reflexivity. }
  intros. apply G.
Qed.

Lemma esum_steps : forall z cap, esum cap 0 z = steps cap (pairs z).
Proof.
  assert (G : forall z cap i, esum cap i z = steps (fun k => cap (i + k)%nat) (pairs z)).
  { induction z as [|a t IH]; intros cap i; [reflexivity|]. destruct t as [|b t]; [reflexivity|]. destruct t as [|c t]; [reflexivity|].
    change (esum cap i (a :: b :: c :: t)) with ((Q2R (b - c) - Q2R (a - b)) * (cap i 1%nat - cap (S i) 0%nat) / 4 + esum cap (S i) (b :: c :: t)).
    change (pairs (a :: b :: c :: t)) with ((a, b) :: (b, c) :: pairs (c :: t)). unfold steps. cbn [length Nat.sub].
    rewrite Rsum_shift. rewrite IH. f_equal.
    - unfold tall. cbn [nth fst snd]. rewrite Nat.add_0_r, Nat.add_1_r. reflexivity.
    - change (pairs (b :: c :: t)) with ((b, c) :: pairs (c :: t)). unfold steps, tall. cbn [length Nat.sub]. rewrite Nat.sub_0_r. f_equal. apply map_ext. intros k. cbn [nth]. rewrite !Nat.add_succ_r. reflexivity. }
  intros. apply G.
Qed.

Lemma resistance_sum : forall (M : @made values) z (cc ct : nat -> nat -> R), (2 <= length z)%nat -> (forall e, In e (pairs z) -> (snd e < fst e)%Q) ->
  (forall i j, (i < length (pairs z))%nat -> (j < 2)%nat -> exists l, stored (m_tz M i j) = Ok (Some l) /\ least l = - cc i j /\ greatest l = ct i j /\ 0 <= cc i j /\ 0 <= ct i j) ->
  shaft_resistance z M = Ok (Some (trapezoids cc (pairs z) + steps cc (pairs z), trapezoids ct (pairs z) + steps ct (pairs z))).
Proof.
  intros M z cc ct L P H. destruct z as [|a [|b r]]; cbn [length] in L; try lia. unfold shaft_resistance. rewrite influence_eq.
  rewrite (shaft_from_sum M (length (pairs (a :: b :: r))) cc ct H).
  - rewrite !weighted_sum by auto. rewrite !tsum_trapezoids, !esum_steps.
    rewrite (Qeq_eqR _ _ (half_abs a b (P (a, b) (or_introl eq_refl)))), Q2R_half. apply f_equal, f_equal, f_equal2; lra.
  - intros x [<-|I]; [apply half_nn|eapply infl_nn; eauto].
  - cbn [length]. rewrite infl_length, pairs_length. cbn [length]. lia.
Qed.

(** ** A model with soil: layers [xs], sections [l], nodes [m]; [co] are the outer perimeters of the elements *)
Definition in_soil (l p : list section) (b : Q) (dt dq : draw) (ta fp : Q) (xs : list axial_layer) (sd : list (@slayer values)) (st : setting) (x : list Q) (c : Q) (m : list Q) (co : nat -> Q) : Prop :=
  fits l p b (map (with_springs dt dq ta fp) xs) sd st x c m /\
  (forall y, In y xs -> (10 < l_weight (x_layer y))%Q) /\
  stress (map x_layer xs) (ground st) (water st) (elems st) = Ok (sig_top st, sig_bottom st) /\
  water_at (requested p b (Some (map x_layer xs)) x) (water st) /\
  (forall i, (i < length (elems st))%nat -> outer st i = Some (co i) /\ (0 < co i)%Q /\ exists D, width st i = Some D /\ (0 < D)%Q) /\
  (forall y s, In y xs -> x_soil y = Some s -> admissible s) /\ fair dt /\ fair_tip dq.

Lemma layers_of_springs : forall dt dq ta fp xs, map s_layer (map (with_springs dt dq ta fp) xs) = map x_layer xs.
Proof. intros. rewrite map_map. reflexivity. Qed.

Lemma Forall2_nth : forall A B (P : A -> B -> Prop) l l' i d d', Forall2 P l l' -> (i < length l)%nat -> P (nth i l d) (nth i l' d').
Proof. intros A B P l l' i d d' H. revert i. induction H as [|a b t t' E F IH]; intros i L; [cbn in L; lia|]. destruct i; [exact E|]. cbn [nth]. apply IH. cbn [length] in L. lia. Qed.

Lemma Forall2_same_length : forall A B (P : A -> B -> Prop) l l', Forall2 P l l' -> length l = length l'.
Proof. intros A B P l l' H. induction H; cbn; congruence. Qed.

Section Situation.
Variables (l p : list section) (b : Q) (dt dq : draw) (ta fp : Q) (xs : list axial_layer) (sd : list (@slayer values)) (st : setting) (x : list Q) (c : Q) (m : list Q) (co : nat -> Q).
Hypothesis SIT : in_soil l p b dt dq ta fp xs sd st x c m co.
Notation layers := (map (with_springs dt dq ta fp) xs).
Notation el i := (nth i (elems st) (0, 0)%Q).

Lemma stress_at : forall i, (i < length (elems st))%nat -> (fst (el i) <= ground st)%Q ->
  (exists s, nth i (sig_top st) None = Some s /\ (s == overburden (map x_layer xs) (water st) (fst (el i)))%Q) /\
  (exists s, nth i (sig_bottom st) None = Some s /\ (s == overburden (map x_layer xs) (water st) (snd (el i)))%Q) /\
  length (sig_bottom st) = length (elems st).
Proof using SIT.
  intros i Hi G. destruct SIT as (F & W & S & WA & _). destruct F as (P & MP & B & TB & PL & ST & SB & BG & ND & X & C & MM & EM & GR).
  rewrite layers_of_springs in *. pose proof (Permutation_map s_layer PL) as PM. rewrite layers_of_springs in PM.
  destruct (C20_stress_is_overburden l p b (map x_layer xs) (map s_layer sd) (ground st) (water st) x c m P MP B PM ST SB BG) as (above & e0 & below & tops & bots & EE & AB & CH & SS & F1 & F2); auto.
  { destruct sd; [congruence|discriminate]. }
  rewrite EM in S. assert (E : tops = sig_top st /\ bots = sig_bottom st) by (split; congruence). destruct E as [-> ->].
  assert (LE : length (elems st) = (length above + length (e0 :: below))%nat) by (rewrite EM, EE, app_length; reflexivity).
  assert (LA : (length above <= i)%nat).
  { destruct (le_lt_dec (length above) i) as [|L]; auto. exfalso. assert (I : In (el i) above). { rewrite EM, EE, app_nth1 by auto. apply nth_In; auto. }
    specialize (AB _ I). Lqa.lra. }
  assert (EN : el i = nth (i - length above) (e0 :: below) (0, 0)%Q) by (rewrite EM, EE, app_nth2 by auto; reflexivity).
  assert (GEN : forall (f : Q * Q -> Q) sig, Forall2 nan_eq sig (map (fun _ => None) above ++ map (fun e => Some (f e)) (e0 :: below)) -> exists s, nth i sig None = Some s /\ (s == f (el i))%Q).
  { intros f sig F. pose proof (Forall2_same_length _ _ _ _ _ F) as LF. rewrite app_length, !map_length in LF.
    pose proof (Forall2_nth _ _ _ _ _ i None None F ltac:(rewrite LF; rewrite LE in Hi; exact Hi)) as N.
    rewrite app_nth2 in N by (rewrite map_length; auto). rewrite map_length in N.
    rewrite (nth_indep (map (fun e => Some (f e)) (e0 :: below)) None (Some (f (0, 0)%Q))) in N by (rewrite map_length; lia).
    rewrite (map_nth (fun e => Some (f e))) in N. rewrite <- EN in N. destruct (nth i sig None) as [s|]; [|contradiction]. exists s. split; auto. }
  split; [apply (GEN (fun e => overburden (map x_layer xs) (water st) (fst e)) (sig_top st) F1)|]. split; [apply (GEN (fun e => overburden (map x_layer xs) (water st) (snd e)) (sig_bottom st) F2)|].
  transitivity (length (map (fun _ => @None Q) above ++ map (fun e => Some (overburden (map x_layer xs) (water st) (snd e))) (e0 :: below))); [exact (Forall2_same_length _ _ _ _ _ F2)|]. rewrite app_length, !map_length. symmetry. exact LE.
Qed.

Lemma own_layer : forall i, (i < length (elems st))%nat -> (snd (el i) < fst (el i))%Q /\
  ((layer_of xs (el i) = None /\ forall j, (j < 2)%nat -> m_tz (create_springs st layers) i j = None) \/
   (exists y, layer_of xs (el i) = Some y /\ In y xs /\ (l_bottom (x_layer y) <= snd (el i))%Q /\ (fst (el i) <= l_top (x_layer y))%Q /\ (fst (el i) <= ground st)%Q /\
     forall j, (j < 2)%nat -> m_tz (create_springs st layers) i j =
       match x_soil y with Some s => if distributed_axial st then Some (tz_curve dt s (shaft_args st (x_layer y) i j)) else None | None => None end)).
Proof using SIT.
  intros i Hi. destruct SIT as (F & _). destruct F as (P & MP & B & TB & PL & ST & SB & BG & ND & X & C & MM & EM & GR).
  destruct (mesh_layers l p b layers sd (ground st) x c m P MP B PL ST SB BG ND X C MM GR) as (AP & NDu & NE & LT & EL).
  assert (IE : In (el i) (elements_of m)) by (rewrite EM; rewrite EM in Hi; apply nth_In; exact Hi).
  assert (TOPS : forall s, In s layers -> (l_top (s_layer s) <= ground st)%Q) by (intros s I; apply (stack_below sd (ground st) ST s); eapply Permutation_in; eauto).
  destruct (EL (el i) IE) as (A1 & A2 & A3). split; [exact A2|].
  destruct (layer_of xs (el i)) as [y|] eqn:FO.
  - right. exists y. split; [reflexivity|]. unfold layer_of in FO. apply find_some in FO. destruct FO as [I V]. apply andb_prop in V. destruct V as [V1 V2]. apply Qle_bool_iff in V1, V2.
    assert (IL : In (with_springs dt dq ta fp y) layers) by (apply in_map; auto). pose proof (TOPS _ IL) as T. cbn [with_springs s_layer] in T.
    split; [exact I|]. split; [exact V1|]. split; [exact V2|]. split; [Lqa.lra|]. intros j Hj.
    assert (H : holds st (with_springs dt dq ta fp y) i) by (split; [exact Hi|split; [exact A2|split; [exact V1|exact V2]]]).
    destruct (shaft_springs st layers _ i j AP IL H Hj) as (_ & _ & E). rewrite E. unfold writes_tz. cbn [with_springs s_ax s_layer]. destruct (x_soil y); reflexivity.
  - left. split; [reflexivity|]. intros j Hj. apply no_layer; auto. intros s I (U1 & U2). apply in_map_iff in I. destruct I as (y & <- & I).
    unfold layer_of in FO. pose proof (find_none _ _ FO y I) as N. cbn beta in N. apply andb_false_iff in N. unfold elem in *. cbn [with_springs s_layer] in *.
    destruct N as [N|N]; apply Bool.not_true_iff_false in N; apply N, Qle_bool_iff; auto.
Qed.

Lemma stored_capacity : distributed_axial st = true -> forall i j, (i < length (elems st))%nat -> (j < 2)%nat ->
  exists v, stored (m_tz (create_springs st layers) i j) = Ok (Some v) /\ least v = - end_capacity true xs st co co i j /\ greatest v = end_capacity false xs st co co i j /\
    0 <= end_capacity true xs st co co i j /\ 0 <= end_capacity false xs st co co i j.
Proof using SIT.
  intros DA i j Hi Hj. destruct (own_layer i Hi) as (A2 & [(FO & N)|(y & FO & I & V1 & V2 & G & N)]); unfold end_capacity; rewrite FO.
  - rewrite N by auto. cbn [stored]. eexists. split; [reflexivity|]. destruct zeros_extremes as [-> ->]. lra.
  - rewrite N by auto. destruct (x_soil y) as [s|] eqn:XS.
    2:{ cbn [stored]. eexists. split; [reflexivity|]. destruct zeros_extremes as [-> ->]. lra. }
    rewrite DA. set (z := if Nat.eqb j 0 then fst (el i) else snd (el i)).
    destruct SIT as (_ & W & _ & _ & OW & AD & FD & _). destruct (OW i Hi) as (EO & CO & D & ED & D0).
    destruct (stress_at i Hi G) as ((s1 & S1 & Q1) & (s2 & S2 & Q2) & _).
    set (a := shaft_args st (x_layer y) i j).
    assert (SG : exists sg, a_sig a = Some sg /\ (sg == overburden (map x_layer xs) (water st) z)%Q).
    { unfold a, shaft_args, pick, z. cbn [a_sig fst snd]. destruct (Nat.eqb j 0); eauto. }
    destruct SG as (sg & SG & QG).
    assert (OB : (0 <= overburden (map x_layer xs) (water st) z)%Q).
    { apply (C20_overburden_grows_with_depth _ (water st) z z); [|apply Qle_refl]. intros l0 I0. apply in_map_iff in I0. destruct I0 as (y0 & <- & I0). auto. }
    assert (ZZ : (snd (el i) <= z)%Q /\ (z <= fst (el i))%Q) by (unfold z; destruct (Nat.eqb j 0); split; Lqa.lra). destruct ZZ as [Z1 Z2].
    assert (AH : a_height a = (l_top (x_layer y) - l_bottom (x_layer y))%Q) by reflexivity.
    assert (ADp : a_depth a = (l_top (x_layer y) - z)%Q) by (unfold a, shaft_args, pick, z; cbn [a_depth]; reflexivity).
    destruct (curve_extremes dt s a sg D (co i) FD (AD y s I XS)) as (zs & t & E & X1 & X2).
    all: try (exact SG || exact ED || exact EO || exact D0 || exact CO).
    { rewrite QG. exact OB. }
    { rewrite AH. Lqa.lra. } { rewrite ADp. Lqa.lra. } { rewrite AH, ADp. Lqa.lra. }
    rewrite E. cbn [stored]. eexists. split; [reflexivity|]. destruct (opposite_extremes _ _ _ X1 X2) as [-> ->]. rewrite Ropp_involutive.
    rewrite (Qeq_eqR _ _ QG), AH, ADp. split; [reflexivity|]. split; [reflexivity|].
    assert (F01 : 0 <= Q2R ((l_top (x_layer y) - z) / (l_top (x_layer y) - l_bottom (x_layer y)))%Q <= 1).
    { assert (HP : (0 < l_top (x_layer y) - l_bottom (x_layer y))%Q) by Lqa.lra. split.
      - apply Q2R_nn. apply Qle_shift_div_l; auto. Lqa.lra.
      - replace 1 with (Q2R 1) by (unfold Q2R; cbn; lra). apply Qle_Rle. apply Qle_shift_div_r; auto. Lqa.lra. }
    assert (CP : 0 <= Q2R (co i)) by (apply Q2R_pos in CO; lra).
    split; apply line_nonneg; auto; try (apply (AD y s I XS)); apply Q2R_nn; auto.
Qed.

Lemma nodes_two : (2 <= length (nodes_of m))%nat /\ elems st = pairs (nodes_of m).
Proof using SIT.
  destruct SIT as (F & _). destruct F as (P & MP & B & TB & PL & ST & SB & BG & ND & X & C & MM & EM & GR).
  destruct (mesh_layers l p b layers sd (ground st) x c m P MP B PL ST SB BG ND X C MM GR) as (AP & NDu & NE & LT & EL).
  rewrite elements_pairs in *. split; [|exact EM]. destruct (nodes_of m) as [|a0 [|b0 r]]; cbn [length]; try lia; cbn in NE; congruence.
Qed.

Lemma shaft_capacity : distributed_axial st = true ->
  shaft_resistance (nodes_of m) (create_springs st layers) =
    Ok (Some (trapezoids (end_capacity true xs st co co) (elems st) + steps (end_capacity true xs st co co) (elems st),
              trapezoids (end_capacity false xs st co co) (elems st) + steps (end_capacity false xs st co co) (elems st))).
Proof using SIT.
  intros DA. destruct nodes_two as [L E]. rewrite E. apply resistance_sum; auto.
  - intros e I. rewrite <- E in I. apply (In_nth _ _ (0, 0)%Q) in I. destruct I as (i & Hi & <-). apply (own_layer i Hi).
  - intros i j Hi Hj. rewrite <- E in Hi. apply stored_capacity; auto.
Qed.

Lemma no_shaft : distributed_axial st = false -> shaft_resistance (nodes_of m) (create_springs st layers) = Ok (Some (0, 0)).
Proof using SIT.
  intros DA. destruct nodes_two as [L E]. rewrite (resistance_sum _ (nodes_of m) (fun _ _ => 0) (fun _ _ => 0)); auto.
  - assert (Z : forall n f, (forall i, f i = 0) -> Rsum (map f (seq 0 n)) = 0).
    { intros n f Hf. generalize (seq 0 n). induction l0 as [|a t IH]; [reflexivity|]. cbn [map Rsum fold_right]. rewrite Hf. unfold Rsum in IH. rewrite IH. lra. }
    unfold trapezoids, steps. rewrite !Z by (intros; field). rewrite Rplus_0_r. reflexivity.
  - intros e I. rewrite <- E in I. apply (In_nth _ _ (0, 0)%Q) in I. destruct I as (i & Hi & <-). apply (own_layer i Hi).
  - intros i j Hi Hj. rewrite <- E in Hi. exists (map Ropp (repeat 0 15)). destruct zeros_extremes as [-> ->]. split; [|lra].
    destruct (own_layer i Hi) as (_ & [(_ & N)|(y & _ & _ & _ & _ & _ & N)]); rewrite N by auto; [reflexivity|]. rewrite DA. destruct (x_soil y); reflexivity.
Qed.

Lemma overburden_nn : forall z, (0 <= overburden (map x_layer xs) (water st) z)%Q.
Proof using SIT.
  intros z. destruct SIT as (_ & W & _). apply (C20_overburden_grows_with_depth _ (water st) z z); [|apply Qle_refl]. intros l0 I0. apply in_map_iff in I0. destruct I0 as (y0 & <- & I0). auto.
Qed.

Lemma tip_bearing : base_axial st = true -> (0 <= ta)%Q -> (0 <= fp)%Q ->
  tip_resistance (create_springs st layers) = Ok (Some (tip_capacity xs st ta fp)).
Proof using SIT.
  intros BA TA FP. assert (NE : elems st <> []). { destruct nodes_two as [L E]. rewrite E. destruct (nodes_of m) as [|a0 [|b0 r]]; cbn [length] in L; try lia. discriminate. }
  assert (SIT' := SIT). destruct SIT as (F & W & S & WA & OW & AD & _ & FQ).
  destruct (C66_base_springs_partial _ l p b layers sd st x c m F) as (TE & sl & U & a & AS & ADp & AH & AW & _ & _ & _ & _ & _ & MQ).
  set (n := (length (elems st) - 1)%nat) in *. set (e := last (elems st) (0, 0)%Q) in *.
  assert (LN : (n < length (elems st))%nat). { unfold n. destruct (elems st); [congruence|cbn; lia]. }
  assert (LAST : forall A (l0 : list A) d, last l0 d = nth (length l0 - 1) l0 d).
  { intros A l0 d. induction l0 as [|y t IH]; [reflexivity|]. destruct t as [|y' t]; [reflexivity|]. cbn [length Nat.sub] in *. rewrite Nat.sub_0_r in *. exact IH. }
  assert (EN : el n = e) by (unfold e, n; rewrite LAST; reflexivity).
  destruct (proj2 (U sl) eq_refl) as (ISL & V1 & V2).
  unfold tip_capacity. fold e. unfold tip_resistance. rewrite MQ.
  destruct (own_layer n LN) as (A2 & [(FO & _)|(y & FO & I & B1 & B2 & G & _)]); rewrite EN in *; rewrite FO.
  { exfalso. apply in_map_iff in ISL. destruct ISL as (y & <- & I). unfold layer_of in FO. pose proof (find_none _ _ FO y I) as N. cbn beta in N. apply andb_false_iff in N. cbn [with_springs s_layer] in *.
    destruct N as [N|N]; apply Bool.not_true_iff_false in N; apply N, Qle_bool_iff; auto. }
  assert (EY : with_springs dt dq ta fp y = sl). { apply U. split; [apply in_map; auto|]. split; auto. }
  subst sl. cbn [with_springs s_ax s_layer] in *. rewrite BA.
  destruct (x_soil y) as [s|] eqn:XS.
  2:{ cbn [stored bind option_map]. destruct zeros_extremes as [-> _]. rewrite Rabs_R0. reflexivity. }
  cbn [f_qz]. destruct (OW n LN) as (_ & _ & D & ED & D0).
  rewrite <- EN in G. destruct (stress_at n LN G) as (_ & (s2 & S2 & Q2) & LS). rewrite EN in Q2.
  assert (SG : a_sig a = Some s2). { rewrite AS, LAST, LS. exact S2. }
  assert (QG : (s2 == overburden (map x_layer xs) (water st) (tip st))%Q).
  { rewrite Q2. pose proof (C20_overburden_grows_with_depth (map x_layer xs) (water st)) as MO.
    assert (WW : forall l0, In l0 (map x_layer xs) -> (10 < l_weight l0)%Q) by (intros l0 I0; apply in_map_iff in I0; destruct I0 as (y0 & <- & I0); auto).
    apply Qle_antisym; apply MO; auto; rewrite TE; apply Qle_refl. }
  set (top := l_top (x_layer y)) in *. set (bot := l_bottom (x_layer y)) in *.
  assert (HP : (0 < top - bot)%Q) by Lqa.lra. assert (DP : (0 <= top - tip st)%Q) by Lqa.lra. assert (DH : (top - tip st <= top - bot)%Q) by Lqa.lra.
  assert (HN : Q2R (a_height a) <> 0) by (rewrite (Qeq_eqR _ _ AH); apply Q2R_pos in HP; lra).
  assert (FR : Q2R ((top - tip st) / (top - bot))%Q = Q2R (a_depth a) / Q2R (a_height a)) by (rewrite (Qeq_eqR _ _ AH), (Qeq_eqR _ _ ADp); apply Q2R_div; Lqa.lra).
  assert (F01 : 0 <= Q2R ((top - tip st) / (top - bot))%Q <= 1).
  { split.
    - apply Q2R_nn. apply Qle_shift_div_l; auto. Lqa.lra.
    - replace 1 with (Q2R 1) by (unfold Q2R; cbn; lra). apply Qle_Rle. apply Qle_shift_div_r; auto. Lqa.lra. }
  assert (BE : forall t b0, t + (b0 - t) * Q2R (a_depth a) / Q2R (a_height a) = between t b0 (Q2R ((top - tip st) / (top - bot))%Q)) by (intros; rewrite FR; unfold between, Rdiv; ring).
  unfold qz_curve. rewrite SG, AW, ED. destruct (FQ s a) as [FU FA]. destruct (dq s a) as [u idx]. cbn [fst snd] in FU, FA.
  assert (S0 : 0 <= Q2R s2) by (rewrite (Qeq_eqR _ _ QG); apply Q2R_nn, overburden_nn).
  pose proof (Q2R_pos D D0) as DR. pose proof (Q2R_nn _ TA) as TR. pose proof (Q2R_nn _ FP) as FPR.
  assert (PE : forall pl, Q2R (if plugged true pl then fp else ta) = if in_compression pl then Q2R fp else Q2R ta) by (intros []; reflexivity).
  rewrite PE. pose proof (AD y s I XS) as ADM.
  assert (FIN : forall w q M, is_max M q -> 0 <= M -> bind (stored (Some (some_values (Ok (w, q))))) (fun q0 => Ok (option_map (fun q1 => Rabs (least q1)) q0)) = Ok (Some M)).
  { intros w q M X P. cbn [some_values stored bind option_map]. rewrite (least_min (map Ropp q) (- M)); [rewrite Rabs_Ropp, Rabs_pos_eq by auto; reflexivity|].
    destruct X as [X1 X2]. split; [apply in_map; auto|]. intros v V. apply in_map_iff in V. destruct V as (w0 & <- & W0). specialize (X2 w0 W0). lra. }
  assert (AR : 0 <= (if in_compression (soil_plug s) then Q2R fp else Q2R ta)) by (destruct (in_compression (soil_plug s)); auto).
  destruct s as [cl|sa]; cbn [admissible soil_plug unit_bearing bearing_factor] in *.
  - destruct ADM as (_ & _ & _ & St & Sb & QM & WM). pose proof (between_pos _ _ _ F01 St Sb) as SP.
    destruct (C51_tip_area cl u idx (Q2R ta) (Q2R fp) (Q2R (a_height a)) (Q2R (a_depth a)) (Q2R D) 15 (between (ca_Su_top cl) (ca_Su_bottom cl) (Q2R ((top - tip st) / (top - bot))%Q))) as (w & q & E & _ & _ & X1); auto; try lra.
    rewrite E. apply FIN; [exact X1|]. repeat apply Rmult_le_pos; auto; lra.
  - destruct ADM as (_ & _ & _ & Dt & Db & QM & WM).
    destruct (C51_tip_area_sand sa u idx (Q2R ta) (Q2R fp) (Q2R s2) (Q2R (a_height a)) (Q2R (a_depth a)) (Q2R D) 15 (between (sa_delta_top sa) (sa_delta_bottom sa) (Q2R ((top - tip st) / (top - bot))%Q))) as (w & q & E & _ & _ & X1); auto; try lra.
    rewrite E. rewrite <- (Qeq_eqR _ _ QG). apply FIN; [exact X1|]. repeat apply Rmult_le_pos; auto. apply C50_end_bearing; auto.
Qed.

Lemma no_tip : base_axial st = false -> tip_resistance (create_springs st layers) = Ok (Some 0).
Proof using SIT.
  intros BA. destruct SIT as (F & _). destruct (C66_base_springs_partial _ l p b layers sd st x c m F) as (TE & sl & U & a & AS & ADp & AH & AW & _ & _ & _ & _ & _ & MQ).
  unfold tip_resistance. rewrite MQ, BA. assert (E : match s_ax sl with Some _ => @None values | None => None end = None) by (destruct (s_ax sl); reflexivity).
  rewrite E. cbn [stored bind option_map]. destruct zeros_extremes as [-> _]. rewrite Rabs_R0. reflexivity.
Qed.
End Situation.
