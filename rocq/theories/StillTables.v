(** Result tables of an analysis in which nothing moves in one direction. *)
From Coq Require Import List Bool Arith ZArith QArith Qabs Lia Lqa.
From Verif Require Import Base LinAlg BeamModel SolveModel SolveSpec SolveProofs SpringModel SpringProper WinklerModel ResultModel ApartSpec ApartProofs ApartTables StillProofs.
Import ListNotations.
Local Open Scope Q_scope.

(** every row of a table (elevation, (along, across, rotation)) is zero in the directions [D] *)
Definition rows_still (D : nat -> bool) (rows : list (Q * triple)) : Prop := Forall (fun r => agree3 D (snd r) (0, 0, 0)) rows.

Section Tables.
Variable D : nat -> bool.
Hypothesis DC : forall i j, D i <> D j -> along i <> along j.
Hypothesis DM : forall i, D (i mod 3) = D i.

Lemma node_rows_still : forall m v, still (3 * m) D v -> Forall (fun t => agree3 D t (0, 0, 0)) (node_rows m v).
Proof using DM.
  intros m v H. unfold node_rows. apply Forall_forall. intros t I. apply in_map_iff in I. destruct I as (i & <- & I). apply in_seq in I.
  unfold agree3. repeat split; intros E; apply H; try lia.
  - replace (3 * i)%nat with (3 * i + 0)%nat by lia. rewrite (D_node D DM) by lia. exact E.
  - rewrite (D_node D DM) by lia. exact E.
  - rewrite (D_node D DM) by lia. exact E.
Qed.
Lemma combine_still : forall A (P : A -> Prop) (z : list Q) l, Forall P l -> Forall (fun r => P (snd r)) (combine z l).
Proof using. intros A P z l H. apply Forall_forall. intros [a b] I. apply in_combine_r in I. rewrite Forall_forall in H. apply H. exact I. Qed.
Lemma disp_rows_still : forall z v, still (3 * length z) D v -> rows_still D (disp_rows z v).
Proof using DM. intros z v H. unfold rows_still, disp_rows. apply (combine_still _ (fun t => agree3 D t (0, 0, 0))). apply node_rows_still. exact H. Qed.

Lemma repeat_inner_all : forall A (P : A -> Prop) l, Forall P l -> Forall P (repeat_inner l).
Proof using.
  intros A P l H. unfold repeat_inner. assert (RV : Forall P (rev l)) by (apply Forall_rev; exact H).
  destruct l as [|a t]; [constructor|]. destruct (rev (a :: t)) as [|y s]; [constructor|]. inversion H; subst. inversion RV; subst.
  constructor; [assumption|]. apply Forall_app. split; [|constructor; [assumption|constructor]].
  assert (RL : Forall P (removelast t)) by (clear - H3; induction H3 as [|x u Hx Hu IH]; cbn; [constructor|]; destruct u; constructor; auto).
  unfold inner. cbn [tl]. clear - RL. induction RL; cbn; repeat (constructor; auto).
Qed.
Lemma pair_up_all : forall A (P : A -> Prop) l, Forall P l -> Forall (fun p => P (fst p) /\ P (snd p)) (pair_up l).
Proof using. intros A P. fix F 2. intros l H. destruct H as [|x t Hx Ht]; [constructor|]. destruct Ht as [|y u Hy Hu]; [constructor|]. cbn [pair_up]. constructor; [split; assumption|]. apply F. exact Hu. Qed.

Lemma forces_still : forall m k v, (forall e, (e < m - 1)%nat -> uncoupled (k e)) -> still (3 * m) D v -> Forall (still 6 D) (pile_internal_forces m k v).
Proof using DC DM.
  intros m k v UK H. unfold pile_internal_forces. apply Forall_forall. intros q I. apply in_map_iff in I. destruct I as ([e p] & <- & I).
  pose proof (in_combine_l _ _ _ _ I) as Ie. apply in_combine_r in I. apply in_seq in Ie.
  pose proof (pair_up_all _ _ _ (repeat_inner_all _ _ _ (node_rows_still m v H))) as P. rewrite Forall_forall in P. specialize (P p I). destruct P as [P1 P2].
  intros i Hi Di. cbn [fst snd]. assert (MZ : still 6 D (mulv 6 (k e) (six p))); [|unfold still in MZ; pose proof (MZ i Hi Di) as E0; setoid_rewrite E0; ring].
  apply mulv_still; [exact DC|apply UK; lia|].
  destruct p as [p1 p2]. intros j Hj Dj. rewrite (six_alike D DM p1 (0, 0, 0) p2 (0, 0, 0) P1 P2 j Hj Dj). unfold six, of_list. destruct j as [|[|[|[|[|[|j]]]]]]; try lia; reflexivity.
Qed.
Lemma structural_still : forall z q L, D 1%nat = D 2%nat -> Forall (still 6 D) q -> rows_still D (structural_forces z q L).
Proof using DM.
  intros z q L E12 H. unfold structural_forces. apply (combine_still _ (fun t => agree3 D t (0, 0, 0))). apply Forall_forall. intros t I. apply in_flat_map in I. destruct I as ([a l] & I & T).
  apply in_combine_l in I. rewrite Forall_forall in H. specialize (H a I). cbn [fst snd] in T.
  assert (D3 : D 3%nat = D 0%nat) by (rewrite <- (DM 3); reflexivity). assert (D4 : D 4%nat = D 1%nat) by (rewrite <- (DM 4); reflexivity).
  assert (X : forall i, (i < 6)%nat -> D i = true -> a i == 0) by exact H.
  destruct T as [<-|[<-|[]]]; unfold agree3; repeat split; intros E.
  - rewrite (X 0%nat) by (try lia; exact E). reflexivity.
  - rewrite (X 1%nat) by (try lia; exact E). reflexivity.
  - rewrite (X 2%nat) by (try lia; exact E). reflexivity.
  - rewrite (X 3%nat) by (try lia; congruence). reflexivity.
  - rewrite (X 4%nat) by (try lia; congruence). reflexivity.
  - rewrite (X 2%nat), (X 1%nat) by (try lia; congruence). ring.
Qed.
Lemma mask_0 : forall q, q == 0 -> mask q == 0.
Proof using. intros q H. unfold mask. destruct (Qltb _ _); [reflexivity|exact H]. Qed.
Lemma reaction_still : forall rows, rows_still D rows -> rows_still D (reaction_rows rows).
Proof using.
  intros rows H. unfold reaction_rows. apply Forall_forall. intros r I. apply filter_In in I. destruct I as [I _]. apply in_map_iff in I. destruct I as ([z [[a b] c]] & <- & I).
  unfold rows_still in H. rewrite Forall_forall in H. specialize (H _ I). cbn in H |- *. destruct H as (A & B & C). repeat split; intros E; apply mask_0; auto.
Qed.

(** ** Whole results *)
Definition result_still (r : result) : Prop :=
  (forall t, res_disp r = Some t -> rows_still D t) /\ (forall t, res_forces r = Some t -> rows_still D t) /\ rows_still D (res_reac r).

Lemma solve_model_still : forall solve M z soil F U r res, solver_ok solve -> elements_apart M -> length z = S (w_n M) -> D 1%nat = D 2%nat -> still (size M) D F -> still (size M) D U ->
  solve_model solve M z soil F U r = Ok (Some res) -> result_still res.
Proof using DC DM.
  intros solve M z soil F U r res SO EA LZ E12 HF HU H.
  assert (SZ : size M = (3 * length z)%nat) by (unfold size; lia). assert (SZ' : size M = (3 * S (w_n M))%nat) by (unfold size; lia).
  unfold solve_model in H. destruct soil as [a|].
  - unfold winkler_result in H. destruct (winkler_model solve M F U r 100) as [o|] eqn:W; cbn [bind] in H; [|discriminate H].
    unfold winkler_model in W. destruct (winkler_still (size M) D DC solve _ SO (build M) F U (fun d k K => build_uncoupled M d k K EA) HF HU 100 o W) as (_ & Sd & SQ).
    destruct (result_of M z (a_py a) (a_mt a) (a_hb a) (a_mb a) o) as [x|] eqn:RO; cbn [bind] in H; [|discriminate H]. injection H as <-.
    unfold result_of in RO. destruct (springs_mob _ _ _ _ _) as [mob|]; cbn [bind] in RO; [|discriminate RO]. destruct (base_report _ (a_hb a)) as [h|]; cbn [bind] in RO; [|discriminate RO].
    destruct (base_report _ (a_mb a)) as [mm|]; cbn [bind] in RO; [|discriminate RO]. injection RO as <-. unfold result_still. cbn [res_disp res_forces res_reac]. split; [|split].
    + intros t T. destruct (o_d o) as [d|]; cbn [option_map] in T; [|discriminate T]. injection T as <-. apply disp_rows_still. rewrite <- SZ. apply Sd. reflexivity.
    + intros t T. destruct (o_d o) as [d|]; cbn [option_map] in T; [|discriminate T]. injection T as <-. apply structural_still; [exact E12|]. apply forces_still; [intros e He; apply EA; lia|]. rewrite <- SZ'. apply Sd. reflexivity.
    + unfold reac_table. destruct (o_Q o) as [q|]; [|constructor]. apply reaction_still, disp_rows_still. rewrite <- SZ. apply SQ. reflexivity.
  - unfold beam_result in H. destruct (beam solve (w_n M) (w_mech M) F U r) as [[[d R] q]|] eqn:B; [|discriminate H]. injection H as <-.
    unfold beam in B. destruct (solve_equations solve _ _ F U _) as [[x y]|] eqn:E; [|discriminate B]. cbn [option_map fst snd] in B. injection B as <- <- <-.
    destruct (solve_still (size M) D DC solve _ SO (jit_build (w_n M) (w_mech M)) F U x y (jit_build_uncoupled _ _ EA) HF HU E) as [Sx Sy].
    unfold result_still. cbn [res_disp res_forces res_reac]. split; [|split].
    + intros t T. injection T as <-. apply disp_rows_still. rewrite <- SZ. exact Sx.
    + intros t T. injection T as <-. apply structural_still; [exact E12|]. apply forces_still; [intros e He; apply EA; lia|]. rewrite <- SZ'. exact Sx.
    + apply reaction_still, disp_rows_still. rewrite <- SZ. exact Sy.
Qed.
End Tables.
