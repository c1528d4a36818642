(** Two analyses side by side: when the stiffness, the loads and the prescribed displacements of the second
    are those of the first seen in other coordinates, so is everything the second computes, pass by pass. *)
From Coq Require Import List Bool Arith ZArith QArith Qabs Lia Lqa Setoid.
From Verif Require Import Base LinAlg PileModel BeamModel BeamProofs SolveModel SolveSpec SolveProofs SpringModel SpringProofs SpringProper WinklerModel.
Import ListNotations.
Local Open Scope Q_scope.

Section Twin.
Variables (n : nat) (a b : nat -> Q).
Hypothesis A0 : forall i, (i < n)%nat -> ~ a i == 0.
Hypothesis B0 : forall i, (i < n)%nat -> ~ b i == 0.

(** displacements, forces and stiffness of the second in terms of the first *)
Definition disps (d d' : vec) : Prop := forall i, (i < n)%nat -> d' i == a i * d i.
Definition loads (F F' : vec) : Prop := forall i, (i < n)%nat -> F' i == b i * F i.
Definition stiffs (K K' : mat) : Prop := forall i j, (i < n)%nat -> (j < n)%nat -> K' i j * a j == b i * K i j.

Lemma twin_mulv : forall K K' d d', stiffs K K' -> disps d d' -> loads (mulv n K d) (mulv n K' d').
Proof using.
  intros K K' d d' HK HD i Hi. unfold mulv. rewrite <- sum_scale. apply sum_ext. intros j Hj.
  rewrite (HD j Hj). setoid_replace (K' i j * (a j * d j)) with ((K' i j * a j) * d j) by ring. rewrite (HK i j Hi Hj). ring.
Qed.

Lemma twin_stable : forall K K' r, stiffs K K' -> stable n K r -> stable n K' r.
Proof using A0 B0.
  intros K K' r HK ST v V0 KV.
  assert (HD : disps (fun i => v i / a i) v) by (intros i Hi; field; apply A0; auto).
  pose proof (twin_mulv K K' _ v HK HD) as MV.
  assert (Z : forall i, (i < n)%nat -> v i / a i == 0).
  { apply ST.
    - intros i Hi Ri. rewrite (V0 i Hi Ri). field. apply A0; auto.
    - intros i Hi Ri. specialize (MV i Hi). rewrite (KV i Hi Ri) in MV. symmetry in MV. apply Qmult_integral in MV. destruct MV as [X|X]; auto. destruct (B0 i Hi X). }
  intros i Hi. rewrite (HD i Hi), (Z i Hi). ring.
Qed.

Lemma twin_stable_back : forall K K' r, stiffs K K' -> stable n K' r -> stable n K r.
Proof using A0 B0.
  intros K K' r HK ST v V0 KV.
  assert (HD : disps v (fun i => a i * v i)) by (intros i Hi; reflexivity). pose proof (twin_mulv K K' v _ HK HD) as MV.
  assert (Z : forall i, (i < n)%nat -> a i * v i == 0).
  { apply ST.
    - intros i Hi Ri. rewrite (V0 i Hi Ri). ring.
    - intros i Hi Ri. rewrite (MV i Hi), (KV i Hi Ri). ring. }
  intros i Hi. specialize (Z i Hi). apply Qmult_integral in Z. destruct Z as [X|X]; auto. destruct (A0 i Hi X).
Qed.

Variables (solve solve' : solver) (r r' : nat -> bool).
Hypothesis RR : forall i, (i < n)%nat -> r' i = r i.
Hypothesis SO : solver_ok solve.
Hypothesis SO' : solver_ok solve'.

Lemma stable_supports : forall K, stable n K r <-> stable n K r'.
Proof using RR.
  intros K. split; intros ST v V0 KV; apply ST; intros i Hi Ri; [apply V0|apply KV|apply V0|apply KV]; auto; first [rewrite RR by auto; exact Ri|rewrite <- RR by auto; exact Ri].
Qed.

Definition opt_rel {A : Type} (R : A -> A -> Prop) (x y : option A) : Prop :=
  match x, y with Some u, Some v => R u v | None, None => True | _, _ => False end.

Lemma twin_solve : forall K K' F F' U U', stiffs K K' -> loads F F' -> (forall i, (i < n)%nat -> r i = true -> U' i == a i * U i) ->
  opt_rel (fun x y => disps (fst x) (fst y) /\ loads (snd x) (snd y)) (solve_equations solve n K F U r) (solve_equations solve' n K' F' U' r').
Proof using A0 B0 SO SO' RR.
  intros K K' F F' U U' HK HF HU.
  destruct (solve_equations solve n K F U r) as [[u R]|] eqn:E; destruct (solve_equations solve' n K' F' U' r') as [[u' R']|] eqn:E'; cbn [opt_rel fst snd]; [| | |exact Logic.I].
  - assert (ST' : stable n K' r') by (apply (solve_equations_succeeds solve' n K' F' U' r' SO'); eauto).
    destruct (solve_equations_sound _ _ _ _ _ _ _ _ SO E) as (A1 & A2 & A3). destruct (solve_equations_sound _ _ _ _ _ _ _ _ SO' E') as (C1 & C2 & C3).
    assert (HD : disps u (fun i => a i * u i)) by (intros i Hi; reflexivity). pose proof (twin_mulv K K' u _ HK HD) as MV.
    destruct (solution_unique n K' F' r' u' R' (fun i => a i * u i) (fun i => b i * R i) ST' C1) as [X Y].
    + intros i Hi. rewrite (MV i Hi), (A1 i Hi), (HF i Hi). ring.
    + exact C2.
    + intros i Hi Ri. rewrite RR in Ri by auto. rewrite (A2 i Hi Ri). ring.
    + intros i Hi Ri. rewrite (C3 i Hi Ri). rewrite RR in Ri by auto. rewrite (HU i Hi Ri), (A3 i Hi Ri). reflexivity.
    + split; [exact X|exact Y].
  - assert (ST : stable n K r) by (apply (solve_equations_succeeds solve n K F U r SO); eauto).
    pose proof (twin_stable K K' r HK ST) as ST'. apply stable_supports in ST'. apply (solve_equations_succeeds solve' n K' F' U' r' SO') in ST'. destruct ST' as [x X]. congruence.
  - assert (ST : stable n K' r) by (apply stable_supports, (solve_equations_succeeds solve' n K' F' U' r' SO'); eauto).
    pose proof (twin_stable_back K K' r HK ST) as ST'. apply (solve_equations_succeeds solve n K F U r SO) in ST'. destruct ST' as [x X]. congruence.
Qed.

(** ** The iteration *)
Variables (build build' : vec -> kind -> res mat) (F F' U0 U0' : vec) (beta : Q).
Hypothesis BB : forall i, (i < n)%nat -> b i * b i == beta.
Hypothesis BP : 0 < beta.
Hypothesis HB : forall d d' k, disps d d' -> req stiffs (build d k) (build' d' k).
Hypothesis HF : loads F F'.
Hypothesis HU : disps U0 U0'.

Definition outcomes (o o' : outcome) : Prop :=
  opt_rel disps (o_d o) (o_d o') /\ opt_rel loads (o_Q o) (o_Q o') /\ o_iter o = o_iter o' /\
  opt_rel (fun e e' => e' == beta * e) (o_err o) (o_err o') /\ opt_rel (fun e e' => e' == beta * e) (o_tol o) (o_tol o') /\ Forall2 disps (o_hist o) (o_hist o').

Lemma twin_less : forall x y x' y', x' == beta * x -> y' == beta * y -> Qltb x' y' = Qltb x y.
Proof using BP.
  intros x y x' y' E E'. destruct (Qltb x y) eqn:H.
  - apply Qltb_true in H. apply Qltb_true. rewrite E, E'. apply Qmult_lt_l; auto.
  - apply Qltb_false in H. apply Qltb_false. rewrite E, E'. apply Qmult_le_l; auto.
Qed.

Lemma twin_free_norm : forall v v', loads v v' -> free_norm2 n r' v' == beta * free_norm2 n r v.
Proof using BB RR.
  intros v v' H. unfold free_norm2. rewrite <- sum_scale. apply sum_ext. intros i Hi. rewrite (RR i Hi). destruct (r i); [ring|]. rewrite (H i Hi), <- (BB i Hi). ring.
Qed.
Lemma twin_tol : forall R R', loads R R' -> tol2 n F' R' == beta * tol2 n F R.
Proof using BB HF.
  intros R R' H. unfold tol2, norm2.
  assert (E : sum n (fun i => (F' i - R' i) * (F' i - R' i)) == beta * sum n (fun i => (F i - R i) * (F i - R i))).
  { rewrite <- sum_scale. apply sum_ext. intros i Hi. rewrite (H i Hi), (HF i Hi), <- (BB i Hi). ring. }
  rewrite E. ring.
Qed.

Lemma twin_loop : forall fuel iter d d' U U' K K' Rg Rg' last last', disps d d' -> disps U U' -> stiffs K K' -> loads Rg Rg' -> outcomes last last' ->
  req outcomes (loop solve n build F U0 r fuel iter d U K Rg last) (loop solve' n build' F' U0' r' fuel iter d' U' K' Rg' last').
Proof using A0 B0 SO SO' BB BP HB HF HU RR.
  induction fuel as [|fuel IH]; intros iter d d' U U' K K' Rg Rg' last last' HD HUU HK HR HO; cbn [loop]; [exact HO|].
  pose proof (twin_solve K K' Rg Rg' U U' HK HR (fun i Hi _ => HUU i Hi)) as TS.
  destruct (solve_equations solve n K Rg U r) as [[u R]|]; destruct (solve_equations solve' n K' Rg' U' r') as [[u' R']|]; cbn [opt_rel] in TS; try contradiction.
  2: { destruct HO as (O1 & O2 & O3 & O4 & O5 & O6). unfold outcomes. cbn. repeat split; auto. }
  cbn [fst snd] in TS. destruct TS as [TU TR]. cbv zeta.
  set (d1 := fun i => d i + u i). set (d1' := fun i => d' i + u' i).
  assert (HD1 : disps d1 d1') by (intros i Hi; unfold d1, d1'; rewrite (HD i Hi), (TU i Hi); ring).
  assert (HIST : Forall2 disps (d1 :: o_hist last) (d1' :: o_hist last')) by (constructor; [exact HD1|apply HO]).
  pose proof (HB d1 d1' Secant HD1) as BS.
  destruct (build d1 Secant) as [Ks|es] eqn:ES; destruct (build' d1' Secant) as [Ks'|es'] eqn:ES'; cbn [req bind] in *; try contradiction; [|exact BS].
  set (Rn := fun i => F i - R i + - mulv n Ks d1 i). set (Rn' := fun i => F' i - R' i + - mulv n Ks' d1' i).
  assert (HRN : loads Rn Rn').
  { intros i Hi. unfold Rn, Rn'. rewrite (HF i Hi), (TR i Hi), (twin_mulv Ks Ks' d1 d1' BS HD1 i Hi). ring. }
  pose proof (twin_free_norm Rn Rn' HRN) as EN. pose proof (twin_tol R R' TR) as ET.
  rewrite (twin_less _ _ _ _ EN ET).
  destruct (Qltb _ _ && _)%bool.
  - cbn [bind]. pose proof (twin_solve Ks Ks' F F' U0 U0' BS HF (fun i Hi _ => HU i Hi)) as TS.
    destruct (solve_equations solve n Ks F U0 r) as [[uf Rf]|]; destruct (solve_equations solve' n Ks' F' U0' r') as [[uf' Rf']|]; cbn [opt_rel] in TS; try contradiction; [|reflexivity].
    cbn [fst snd] in TS. unfold req, outcomes. cbn [o_d o_Q o_iter o_err o_tol o_hist opt_rel]. split; [exact HD1|]. split; [exact (proj2 TS)|]. auto.
  - destruct (Nat.eqb (S iter) 100).
    + unfold req, outcomes. cbn [o_d o_Q o_iter o_err o_tol o_hist opt_rel]. auto 10.
    + pose proof (HB d1 d1' Tangent HD1) as BT.
      destruct (build d1 Tangent) as [Kt|et]; destruct (build' d1' Tangent) as [Kt'|et']; cbn [req bind] in *; try contradiction; [|exact BT].
      apply IH; auto.
      * intros i Hi. unfold zero. ring.
      * unfold outcomes. cbn [o_d o_Q o_iter o_err o_tol o_hist opt_rel]. auto 10.
Qed.

Lemma twin_winkler : forall max_iter, req outcomes (winkler solve n build F U0 r max_iter) (winkler solve' n build' F' U0' r' max_iter).
Proof using A0 B0 SO SO' BB BP HB HF HU RR.
  intros m. unfold winkler. assert (Z : disps zero zero) by (intros i Hi; unfold zero; ring).
  pose proof (HB zero zero Initial Z) as BI. destruct (build zero Initial) as [K|e]; destruct (build' zero Initial) as [K'|e']; cbn [req bind] in *; try contradiction; [|exact BI].
  apply twin_loop; auto. unfold outcomes. cbn [o_d o_Q o_iter o_err o_tol o_hist opt_rel]. split; [exact Z|]. split; [exact Logic.I|]. split; [reflexivity|].
  split; [apply twin_free_norm; exact HF|]. split; [exact Logic.I|constructor].
Qed.
End Twin.
