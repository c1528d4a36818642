(** C50: the values of the limits of sand, between the tabulated friction angles too. *)
From Coq Require Import List Reals Lra Lia.
From Verif Require Import Base ApiClayProofs AxialModel AxialSpec AxialProofs AxialProps.
Import ListNotations.
Local Open Scope R_scope.

(** ** C50: the limits of sand are those of API, linear between the tabulated friction angles and constant outside *)
Definition api_bearing_factors : list (R * R) := [(15, 8); (20, 12); (25, 20); (30, 40); (35, 50)].
Definition tabulated (l : list (R * R)) (x v : R) : Prop :=
  (exists a y t, l = (a, y) :: t /\ x <= a /\ v = y) \/
  (exists h a y a' y' t, l = h ++ (a, y) :: (a', y') :: t /\ a <= x <= a' /\ (a' - a) * v = (a' - x) * y + (x - a) * y') \/
  (exists h a y, l = h ++ [(a, y)] /\ a <= x /\ v = y).

Ltac sharp := first [lra | match goal with r : ?x <= ?c |- _ => is_var x; assert (x = c) by lra; subst x; lra end].
Ltac pick := repeat (rewrite interp_unfold; destruct (Rle_dec _ _); [try sharp|destruct (Rle_dec _ _); try sharp]); try (cbn [rinterp]; destruct (Rle_dec _ _); sharp).
Lemma two_cons : forall A (h t : list A) a b x y l, x :: y :: l = h ++ a :: b :: t -> (h = [] /\ x = a /\ y = b /\ l = t) \/ exists h', h = x :: h' /\ y :: l = h' ++ a :: b :: t.
Proof. intros A [|z h] t a b x y l H; cbn in H; injection H; intros; subst; eauto. Qed.

Theorem C50_sand_limits : forall sig delta K v w, tabulated api_bearing_limits delta v -> tabulated api_bearing_factors delta w ->
  Qmax_api_sand sig delta = Rmin v (sig * w) /\
  forall f, tabulated api_friction_limits delta f -> fmax_api_sand sig delta K = Rmin f (K * sig * tan (delta * PI / 180)).
Proof.
  assert (G : forall y1 y2 y3 y4 y5 x v, tabulated [(15, y1); (20, y2); (25, y3); (30, y4); (35, y5)] x v ->
    rinterp [(0, y1); (15, y1); (20, y2); (25, y3); (30, y4); (35, y5); (100, y5)] x = v).
  { intros y1 y2 y3 y4 y5 x v [(a & y & t & E & L & ->)|[(h & a & y & a' & y' & t & E & L & V)|(h & a & y & E & L & ->)]].
    - injection E as <- <- <-. pick.
    - repeat (apply two_cons in E; destruct E as [(-> & A & B & _)|(? & -> & E)]; [injection A as <- <-; injection B as <- <-; pick|]).
      exfalso. apply (f_equal (@length _)) in E. rewrite app_length in E. cbn in E. lia.
    - do 4 (destruct h as [|? h]; [discriminate E|injection E as _ E]). destruct h as [|? h]; [|destruct h; discriminate E]. injection E as <- <-. pick. }
  intros sig delta K v w V W. unfold Qmax_api_sand, fmax_api_sand, Qmax_table, Nq_table, fs_table.
  rewrite (G _ _ _ _ _ _ _ V), (G _ _ _ _ _ _ _ W). split; [reflexivity|]. intros f F. rewrite (G _ _ _ _ _ _ _ F). reflexivity.
Qed.
Print Assumptions C50_sand_limits.

(** Every friction angle has tabulated values. *)
Example C50_example_limits : (forall x, exists v w f, tabulated api_bearing_limits x v /\ tabulated api_bearing_factors x w /\ tabulated api_friction_limits x f) /\
  Qmax_api_sand 1000 27.5 = 7200 /\ Qmax_api_sand 10 27.5 = 300.
Proof.
  assert (G : forall y1 y2 y3 y4 y5 x, exists v, tabulated [(15, y1); (20, y2); (25, y3); (30, y4); (35, y5)] x v).
  { intros y1 y2 y3 y4 y5 x. destruct (Rle_dec x 15); [exists y1; left; eauto 6|].
    destruct (Rle_dec x 20); [exists ((20 - x) / 5 * y1 + (x - 15) / 5 * y2); right; left; exists [], 15, y1, 20, y2; eexists; repeat split; try lra; field|].
    destruct (Rle_dec x 25); [exists ((25 - x) / 5 * y2 + (x - 20) / 5 * y3); right; left; exists [(15, y1)], 20, y2, 25, y3; eexists; repeat split; try lra; field|].
    destruct (Rle_dec x 30); [exists ((30 - x) / 5 * y3 + (x - 25) / 5 * y4); right; left; exists [(15, y1); (20, y2)], 25, y3, 30, y4; eexists; repeat split; try lra; field|].
    destruct (Rle_dec x 35); [exists ((35 - x) / 5 * y4 + (x - 30) / 5 * y5); right; left; exists [(15, y1); (20, y2); (25, y3)], 30, y4, 35, y5; eexists; repeat split; try lra; field|].
    exists y5. right. right. exists [(15, y1); (20, y2); (25, y3); (30, y4)], 35, y5. repeat split; lra. }
  split; [intros x; destruct (G 1900 2900 4800 9600 12000 x) as [v V]; destruct (G 8 12 20 40 50 x) as [w W]; destruct (G 47.8 67 81.3 95.7 114.8 x) as [f F]; exists v, w, f; auto|].
  assert (V : tabulated api_bearing_limits 27.5 7200) by (right; left; exists [(15, 1900); (20, 2900)], 25, 4800, 30, 9600; eexists; repeat split; lra).
  assert (W : tabulated api_bearing_factors 27.5 30) by (right; left; exists [(15, 8); (20, 12)], 25, 20, 30, 40; eexists; repeat split; lra).
  split; [rewrite (proj1 (C50_sand_limits 1000 27.5 0 _ _ V W)); apply Rmin_left; lra|rewrite (proj1 (C50_sand_limits 10 27.5 0 _ _ V W)), Rmin_right; lra].
Qed.

(** ** C51: the unit resistances a soil model reports are those its own springs mobilise, per unit of area and multiplier,
    with the strength or angle taken linearly between the top and the bottom of the layer *)
Theorem C51_unit_tip_resistance : forall u idx tip_area footprint sig height depth D n, (forall i, 0 <= u i < 1) -> argsort (tip_backbone_z u n) idx ->
  0 < height -> 0 <= depth <= height -> 0 < D -> 0 <= tip_area -> 0 <= footprint -> 0 <= sig ->
  (forall m, 0 <= ca_Qm m -> 0 <= ca_wm m -> 0 <= ca_Su_top m -> 0 <= ca_Su_bottom m -> exists r w q, clay_tip_resistance m depth height = Ok r /\
     clay_Qz m u idx tip_area footprint height depth D n = Ok (w, q) /\ is_max (r * ca_Qm m * (if in_compression (ca_plug m) then footprint else tip_area)) q /\
     height * r = 9 * ((height - depth) * ca_Su_top m + depth * ca_Su_bottom m)) /\
  (forall m, 0 <= sa_Qm m -> 0 <= sa_wm m -> exists r w q, sand_tip_resistance m sig depth height = Ok r /\
     sand_Qz m u idx tip_area footprint sig height depth D n = Ok (w, q) /\ is_max (r * sa_Qm m * (if in_compression (sa_plug m) then footprint else tip_area)) q /\
     forall delta v f, height * delta = (height - depth) * sa_delta_top m + depth * sa_delta_bottom m -> tabulated api_bearing_limits delta v -> tabulated api_bearing_factors delta f ->
       r = Rmin v (sig * f)).
Proof.
  intros u idx tip_area footprint sig height depth D n HU HA Hh Hd HD H1 H2 Hs. assert (N : height <> 0) by lra. split.
  - intros m Q1 Q2 Q3 Q4. set (Su := ca_Su_top m + (ca_Su_bottom m - ca_Su_top m) * depth / height).
    assert (E : height * Su = (height - depth) * ca_Su_top m + depth * ca_Su_bottom m) by (unfold Su; field; exact N).
    assert (P : 0 <= Su). { assert (0 <= (height - depth) * ca_Su_top m) by (apply Rmult_le_pos; lra). assert (0 <= depth * ca_Su_bottom m) by (apply Rmult_le_pos; lra).
      destruct (Rle_dec 0 Su) as [L|L]; [exact L|]. assert (height * Su < 0) by (replace 0 with (height * 0) by lra; apply Rmult_lt_compat_l; lra). lra. }
    destruct (C51_tip_area m u idx tip_area footprint height depth D n Su HU HA N HD H1 H2 Q1 Q2 eq_refl P) as (w & q & A & _ & _ & B).
    exists (9 * Su), w, q. split; [unfold clay_tip_resistance; rewrite at_depth_ok by exact N; reflexivity|]. split; [exact A|]. split; [exact B|]. lra.
  - intros m Q1 Q2. set (dl := sa_delta_top m + (sa_delta_bottom m - sa_delta_top m) * depth / height).
    destruct (C51_tip_area_sand m u idx tip_area footprint sig height depth D n dl HU HA N HD H1 H2 Hs Q1 Q2 eq_refl) as (w & q & A & _ & _ & B).
    exists (Qmax_api_sand sig dl), w, q. split; [unfold sand_tip_resistance; rewrite at_depth_ok by exact N; reflexivity|]. split; [exact A|]. split; [exact B|].
    intros delta v f E V F. assert (delta = dl). { apply Rmult_eq_reg_l with height; [|exact N]. rewrite E. unfold dl. field. exact N. } subst delta. apply (C50_sand_limits sig dl 0 v f V F).
Qed.
Print Assumptions C51_unit_tip_resistance.

Theorem C51_unit_friction_of_sand : forall m u idx cin cout sig height depth n tm zm delta, (forall i, 0 <= u i < 1) -> argsort (sand_backbone_z u n) idx ->
  0 < cout -> 0 <= cin -> 0 <= sig -> 0 < height -> sa_tm m = MNum tm -> sa_zm m = MNum zm -> 0 <= tm -> 0 <= zm -> 0 <= sa_K m -> 0 <= sa_tension m ->
  height * delta = (height - depth) * sa_delta_top m + depth * sa_delta_bottom m -> 0 <= delta < 90 ->
  exists f z t, sand_shaft_friction m sig depth height = Ok f /\ sand_tz m u idx cin cout sig height depth n = Ok (z, t) /\
    is_max (f * tm * sliding_perimeter (in_compression (sa_plug m)) cin cout) t /\
    forall l, tabulated api_friction_limits delta l -> f = Rmin l (sa_K m * sig * tan (delta * PI / 180)).
Proof.
  intros m u idx cin cout sig height depth n tm zm delta HU HA Hc Hi Hs Hh ET EZ Htm Hzm HK HT E HD. assert (N : height <> 0) by lra.
  assert (ES : delta = sa_delta_top m + (sa_delta_bottom m - sa_delta_top m) * depth / height). { apply Rmult_eq_reg_l with height; [|exact N]. rewrite E. field. exact N. }
  destruct (C51_sand_perimeter_partial m u idx cin cout sig height depth n tm zm delta HU HA Hc Hi Hs N ET EZ Htm Hzm HK HT ES HD) as (z & t & A & _ & _ & _ & B & _).
  exists (fmax_api_sand sig delta (sa_K m)), z, t. split; [unfold sand_shaft_friction; rewrite at_depth_ok by exact N; cbn [bind]; rewrite <- ES; reflexivity|]. split; [exact A|]. split; [exact B|].
  intros l L. assert (X : exists v w, tabulated api_bearing_limits delta v /\ tabulated api_bearing_factors delta w).
  { destruct (proj1 C50_example_limits delta) as (v & w & f & V & W & _). eauto. } destruct X as (v & w & V & W). apply (proj2 (C50_sand_limits sig delta (sa_K m) v w V W) l L).
Qed.
Print Assumptions C51_unit_friction_of_sand.

(** A sand of 25 to 30 degrees, half way down its layer: 27.5 degrees, and 1000 kPa of stress are enough for the limit. *)
Example C51_example_unit : let m := mkSandAxial 25 30 0.8 PlugNone (MNum 1) (MNum 1) 1 1 1 1 in exists u idx w q, (forall i, 0 <= u i < 1) /\ argsort (tip_backbone_z u 15) idx /\
  sand_tip_resistance m 1000 2 4 = Ok 7200 /\ sand_Qz m u idx 1 2 1000 4 2 1 15 = Ok (w, q) /\ is_max (7200 * 1 * 1) q.
Proof.
  intros m. set (u := fun _ : nat => 0). assert (HU : forall i, 0 <= u i < 1) by (intros i; unfold u; lra).
  assert (HA : argsort (tip_backbone_z u 15) (seq 0 15)).
  { assert (L : length (tip_backbone_z u 15) = 15%nat). { unfold tip_backbone_z, backbone_z. rewrite rsort_length, app_length, map_length, seq_length. reflexivity. }
    rewrite <- L at 2. apply argsort_id. apply rsort_nd. }
  destruct (C51_unit_tip_resistance u (seq 0 15) 1 2 1000 4 2 1 15 HU HA ltac:(lra) ltac:(lra) ltac:(lra) ltac:(lra) ltac:(lra) ltac:(lra)) as [_ G].
  destruct (G m) as (r & w & q & A & B & C & D); [cbn; lra|cbn; lra|]. exists u, (seq 0 15), w, q.
  assert (R : r = 7200). { rewrite (D 27.5 7200 30); [apply Rmin_left; lra|cbn; lra| |].
    - right. left. exists [(15, 1900); (20, 2900)], 25, 4800, 30, 9600. eexists. repeat split; lra.
    - right. left. exists [(15, 8); (20, 12)], 25, 20, 30, 40. eexists. repeat split; lra. }
  rewrite R in A, C. split; [exact HU|]. split; [exact HA|]. split; [exact A|]. split; [exact B|exact C].
Qed.
