(** Property C138: the reported shaft resistance and the integral of the friction. *)
From Coq Require Import List Bool Arith ZArith QArith Qabs Reals Qreals Lia Lqa Lra.
From Verif Require Import Base PileModel MeshModel StressModel StressSpec StressProps CreateModel CreateProps AxialModel AxialSpec CapacityModel CapacitySpec CapacityProofs CapacityProps AreaSpec AreaProofs.
Import ListNotations.
Local Open Scope R_scope.

(** The report differs from the trapezoidal rule by a quarter of the longest element times the jumps of the friction. *)
Theorem C138_jumps : forall l p b dt dq ta fp xs sd st x c m co, in_soil l p b dt dq ta fp xs sd st x c m co -> distributed_axial st = true ->
  exists comp tens, shaft_resistance (nodes_of m) (create_springs st (map (with_springs dt dq ta fp) xs)) = Ok (Some (comp, tens)) /\
    Rabs (comp - trapezoids (end_capacity true xs st co co) (elems st)) <= (Q2R c + 1 / 10000) / 4 * jumps (end_capacity true xs st co co) st /\
    Rabs (tens - trapezoids (end_capacity false xs st co co) (elems st)) <= (Q2R c + 1 / 10000) / 4 * jumps (end_capacity false xs st co co) st.
Proof.
  intros l p b dt dq ta fp xs sd st x c m co S D. rewrite (shaft_capacity _ _ _ _ _ _ _ _ _ _ _ _ _ _ S D). do 2 eexists. split; [reflexivity|].
  split; (match goal with |- Rabs (?a + ?s - ?a) <= _ => replace (a + s - a) with s by lra end); apply (steps_small _ _ _ _ _ _ _ _ _ _ _ _ _ _ S).
Qed.
Print Assumptions C138_jumps.

(** Where the friction does not decrease with depth inside elements, the report is as close to every Riemann sum of the friction. *)
Theorem C138_integral : forall l p b dt dq ta fp xs sd st x c m co pieces, in_soil l p b dt dq ta fp xs sd st x c m co ->
  distributed_axial st = true -> divided st pieces ->
  exists comp tens, shaft_resistance (nodes_of m) (create_springs st (map (with_springs dt dq ta fp) xs)) = Ok (Some (comp, tens)) /\
    (deepening (capacity_at true xs st co) st -> Rabs (comp - friction_sum (capacity_at true xs st co) st pieces) <=
      (Q2R c + 1 / 10000) / 2 * variation (end_capacity true xs st co co) st + (Q2R c + 1 / 10000) / 4 * jumps (end_capacity true xs st co co) st) /\
    (deepening (capacity_at false xs st co) st -> Rabs (tens - friction_sum (capacity_at false xs st co) st pieces) <=
      (Q2R c + 1 / 10000) / 2 * variation (end_capacity false xs st co co) st + (Q2R c + 1 / 10000) / 4 * jumps (end_capacity false xs st co co) st).
Proof. intros. eapply resistance_close; eauto. Qed.
Print Assumptions C138_integral.

(** Soils whose strength does not decrease with depth are such; clays where the stress is 1 Pa or more. *)
Theorem C138_deepening : forall l p b dt dq ta fp xs sd st x c m co comp, in_soil l p b dt dq ta fp xs sd st x c m co ->
  (forall y s, In y xs -> x_soil y = Some s -> no_weaker_below s) ->
  (forall i y c0, (i < length (elems st))%nat -> layer_of xs (nth i (elems st) (0, 0)%Q) = Some y -> x_soil y = Some (Clay c0) ->
     0.001 <= Q2R (overburden (map x_layer xs) (water st) (fst (nth i (elems st) (0, 0)%Q)))) ->
  deepening (capacity_at comp xs st co) st.
Proof. intros. eapply layers_deepen; eauto. Qed.
Print Assumptions C138_deepening.

(** The clay of C101 under a layer without axial model, with elements halved *)
Definition halves (i : nat) : list (Q * Q) :=
  let e := nth i (elems set1) (0, 0)%Q in let h := ((fst e + snd e) / 2)%Q in [(h, h); (h, snd e)].
Example C138_example : in_soil ex_l ex_p (-8) draw_w draw_w 1 2 (layers_w (Clay clay_w)) (map (with_springs draw_w draw_w 1 2) (down_w (Clay clay_w))) set1 [(-1)%Q] 2 mesh1 (fun _ => 1%Q) /\
  distributed_axial set1 = true /\ divided set1 halves /\
  deepening (capacity_at true (layers_w (Clay clay_w)) set1 (fun _ => 1%Q)) set1 /\ 0 < jumps (end_capacity true (layers_w (Clay clay_w)) set1 (fun _ => 1%Q) (fun _ => 1%Q)) set1.
Proof.
  destruct draw_w_fair as [F1 F2]. pose proof (witness (Clay clay_w) draw_w draw_w clay_w_admissible F1 F2) as W.
  split; [exact W|]. split; [reflexivity|]. split; [|split].
  - intros i Hi. assert (C : (i = 0 \/ i = 1 \/ i = 2 \/ i = 3 \/ i = 4 \/ i = 5)%nat) by (vm_compute in Hi; lia).
    destruct C as [->|[->|[->|[->|[->| ->]]]]]; vm_compute; repeat split; discriminate.
  - apply (C138_deepening _ _ _ _ _ _ _ _ _ _ _ _ _ _ true W).
    + intros y s [<-|[<-|[]]] E; cbn in E; [|discriminate]. injection E as <-. cbn. lra.
    + intros i y c0 Hi EY ES. destruct (witness_layers (Clay clay_w)) as (A & B & C).
      destruct (Nat.eq_dec i 0) as [->|N0]; [congruence|]. destruct (Nat.lt_ge_cases i 4) as [L|L].
      { rewrite B in EY by lia. injection EY as <-. discriminate. }
      assert (CC : (i = 4 \/ i = 5)%nat) by (vm_compute in Hi; lia).
      assert (ONE : 0.001 <= Q2R 1) by (unfold Q2R; cbn; lra).
      eapply Rle_trans; [exact ONE|]. apply Qle_Rle. destruct CC as [->| ->]; vm_compute; discriminate.
  - destruct (witness_capacity true (fun _ => 1%Q) (fun _ => 1%Q)) as (Z & E & P). specialize (E eq_refl eq_refl). specialize (P eq_refl ltac:(discriminate)).
    destruct witness_heights as (L & _). unfold jumps. rewrite L. cbn [Nat.sub seq map Rsum fold_right].
    rewrite (Z 3%nat 1%nat) by lia. 
    repeat match goal with |- context [Rabs ?a] => lazymatch goal with H : 0 <= Rabs a |- _ => fail | _ => pose proof (Rabs_pos a) end end.
    assert (0 < Rabs (0 - end_capacity true (layers_w (Clay clay_w)) set1 (fun _ => 1%Q) (fun _ => 1%Q) 4 0)) by (apply Rabs_pos_lt; lra). lra.
Qed.
