From Coq Require Import List Bool Arith ZArith QArith Qabs Lia Lqa Setoid.
From Verif Require Import Base LinAlg PileModel BeamProofs SolveModel SolveSpec SolveProofs SpringModel SpringProofs WinklerModel WinklerSpec.
Import ListNotations.
Local Open Scope Q_scope.

Section Loop.
Variables (solve : solver) (n : nat) (build : vec -> kind -> res mat).
Variables (F U0 : vec) (supports : nat -> bool).
Hypothesis SO : solver_ok solve.

Let loop := loop solve n build F U0 supports.
Let winkler := winkler solve n build F U0 supports.

Let prescribed := prescribed n U0 supports.

(** [e] and [t]: squared error and tolerance at the last pass *)
Definition in_balance (o : outcome) (d : vec) : Prop := exists Ks R e t, build d Secant = Ok Ks /\
  o_err o = Some e /\ o_tol o = Some t /\
  (forall i, (i < n)%nat -> supports i = false -> R i == 0) /\
  e == out_of_balance n supports F Ks d /\ t == (1 # 100000000) * force2 n (fun i => F i - R i) /\ e < t.

Lemma loop_sound : forall fuel iter d U K Rg last o,
  (iter < 100)%nat ->
  (forall i, (i < n)%nat -> supports i = true -> d i + U i == U0 i) ->
  Forall prescribed (o_hist last) -> length (o_hist last) = iter ->
  (forall v, o_d last = Some v -> o_hist last = [] \/ exists t, o_hist last = v :: t) ->
  (o_hist last <> [] -> o_d last <> None) ->
  o_iter last = iter ->
  loop fuel iter d U K Rg last = Ok o ->
  Forall prescribed (o_hist o) /\ (length (o_hist o) <= iter + fuel)%nat /\
  (forall v, o_d o = Some v -> o_hist o = [] \/ exists t, o_hist o = v :: t) /\
  (o_d o = None -> o_Q o = None \/ o_hist o = []) /\
  (100 <= iter + fuel -> forall v, o_d o = Some v ->
     in_balance o v /\ (exists R, o_Q o = Some R /\ reactions_for n build F U0 supports v R) /\ (2 <= o_iter o <= 100))%nat.
Proof.
  induction fuel as [|f IH]; intros iter d U K Rg last o IT DU HP HL HD HN HI H.
  - cbn in H. assert (E : o = last) by congruence. subst o. split; [exact HP|]. split; [lia|]. split; [exact HD|]. split; [|intros L; lia].
    intros E. destruct (o_hist last); [right; auto|]. exfalso. apply HN; [discriminate|exact E].
  - unfold loop in H. cbn [WinklerModel.loop] in H.
    destruct (solve_equations solve n K Rg U supports) as [[u_inc R]|] eqn:SE.
    2:{ match type of H with Ok ?x = Ok o => assert (E : o = x) by congruence end. subst o. cbn.
        repeat split; auto; try lia; discriminate. }
    destruct (solve_equations_sound solve n K Rg U supports u_inc R SO SE) as (S1 & S2 & S3).
    cbv zeta in H.
    set (d' := fun i => d i + u_inc i) in *.
    assert (PD : prescribed d').
    { intros i Hi Si. unfold d'. rewrite (S3 i Hi Si). apply DU; auto. }
    destruct (build d' Secant) as [Ks|] eqn:BS; cbn [bind] in H; [|discriminate].
    set (Rg' := fun i => F i - R i + - mulv n Ks d' i) in *.
    destruct (Qltb (free_norm2 n supports Rg') (tol2 n F R) && (1 <? S iter)%nat) eqn:CV.
    + rewrite BS in H || idtac. cbn [bind] in H. destruct (solve_equations solve n Ks F U0 supports) as [[V Rf]|] eqn:SF; [|discriminate].
      match type of H with Ok ?x = Ok o => assert (E : o = x) by congruence end. subst o. cbn.
      apply andb_prop in CV. destruct CV as [C1 C2]. apply Qltb_true in C1. apply Nat.ltb_lt in C2.
      destruct (solve_equations_sound solve n Ks F U0 supports V Rf SO SF) as (T1 & T2 & T3).
      split; [constructor; auto|]. split; [lia|]. split; [intros v E; right; exists (o_hist last); injection E as <-; reflexivity|]. split; [discriminate|].
      intros _ v E. assert (v = d') by congruence. subst v. split; [|split; [|lia]].
      * exists Ks, R, (free_norm2 n supports Rg'), (tol2 n F R). split; [auto|]. split; [reflexivity|]. split; [reflexivity|]. split; [auto|].
        split; [|split; [reflexivity|exact C1]].
        unfold free_norm2. apply sum_ext. intros i Hi. destruct (supports i) eqn:Si; [reflexivity|].
        unfold Rg'. rewrite (S2 i Hi Si). ring.
      * exists Rf. split; [auto|]. exists Ks, V. exact (conj BS (conj T1 (conj T2 T3))).
    + destruct (Nat.eqb_spec (S iter) 100) as [E100|N100].
      * match type of H with Ok ?x = Ok o => assert (E : o = x) by congruence end. subst o. cbn.
        split; [constructor; auto|]. split; [lia|]. split; [discriminate|]. split; [auto|]. intros _ v E. discriminate.
      * destruct (build d' Tangent) as [K'|] eqn:BT; cbn [bind] in H; [|discriminate].
        apply IH in H; cbn; auto; try lia.
        -- replace (iter + S f)%nat with (S iter + f)%nat by lia. exact H.
        -- intros i Hi Si. unfold zero. rewrite (PD i Hi Si). ring.
        -- intros v E. right. exists (o_hist last). injection E as <-. reflexivity.
        -- discriminate.
Qed.

Lemma winkler_sound : forall max_iter o, winkler max_iter = Ok o ->
  Forall prescribed (o_hist o) /\ (length (o_hist o) <= S max_iter)%nat /\
  (forall v, o_d o = Some v -> prescribed v \/ o_hist o = []) /\
  (o_d o = None -> o_Q o = None \/ o_hist o = []) /\
  (99 <= max_iter -> forall v, o_d o = Some v ->
     in_balance o v /\ (exists R, o_Q o = Some R /\ reactions_for n build F U0 supports v R) /\ (2 <= o_iter o <= 100))%nat.
Proof.
  intros m o H. unfold winkler, WinklerModel.winkler in H.
  destruct (build zero Initial) as [K|] eqn:B; cbn [bind] in H; [|discriminate].
  apply loop_sound in H; cbn; auto; try lia.
  - destruct H as (A & B' & C & D & E). split; [auto|]. split; [lia|]. split; [|split; [auto|intros L; apply E; lia]].
    intros v EV. destruct (C v EV) as [X|[t X]]; [right; auto|left]. rewrite X in A. inversion A; auto.
  - intros i Hi Si. unfold zero. ring.
Qed.

(** The loop always makes at least one pass. *)
Lemma winkler_moves : forall max_iter o v, winkler max_iter = Ok o -> o_d o = Some v -> prescribed v.
Proof.
  intros m o v H E. destruct (winkler_sound m o H) as (A & _ & C & _). destruct (C v E) as [|X]; auto. exfalso.
  unfold winkler, WinklerModel.winkler in H. destruct (build zero Initial) as [K|]; cbn [bind] in H; [|discriminate].
  cbn [WinklerModel.loop] in H. destruct (solve_equations solve n K F U0 supports) as [[u R]|]; [|assert (Y : o_d o = None) by (injection H as <-; reflexivity); congruence].
  cbv zeta in H. destruct (build _ Secant) as [Ks|]; cbn [bind] in H; [|discriminate].
  cbn [Nat.ltb Nat.leb] in H. rewrite andb_false_r in H. cbn [Nat.eqb] in H.
  destruct (build _ Tangent) as [Kt|]; cbn [bind] in H; [|discriminate].
  assert (G : forall fuel iter d U K Rg last o, o_hist last <> [] -> loop fuel iter d U K Rg last = Ok o -> o_hist o <> []).
  { clear. induction fuel as [|f IH]; intros iter d U K Rg last o NE H; unfold loop in H; cbn [WinklerModel.loop] in H.
    - injection H as <-. auto.
    - destruct (solve_equations solve n K Rg U supports) as [[u R]|]; [|injection H as <-; auto]. cbv zeta in H.
      destruct (build _ Secant) as [Ks|]; cbn [bind] in H; [|discriminate]. destruct (_ && _)%bool.
      + destruct (solve_equations _ _ _ _ _ _) as [[V Rf]|]; [|discriminate]. injection H as <-. discriminate.
      + destruct (Nat.eqb (S iter) 100); [injection H as <-; discriminate|].
        destruct (build _ Tangent) as [Kt|]; cbn [bind] in H; [|discriminate]. apply IH in H; auto. discriminate. }
  apply G in H; auto. discriminate.
Qed.

(** ** No load *)

Hypothesis F0 : veq n F zero.

Lemma sum_squares_zero : forall (f : nat -> Q), (forall i, (i < n)%nat -> f i == 0) -> sum n (fun i => f i * f i) == 0.
Proof. intros f H. apply sum_zero. intros i Hi. rewrite (H i Hi). ring. Qed.

Lemma unloaded_pass : forall K Rg U u R, stable n K supports -> veq n Rg zero -> (forall i, (i < n)%nat -> supports i = true -> U i == 0) ->
  solve_equations solve n K Rg U supports = Some (u, R) -> veq n u zero /\ veq n R zero.
Proof.
  intros K Rg U u R ST R0 U0' H. destruct (solve_equations_sound solve n K Rg U supports u R SO H) as (S1 & S2 & S3).
  apply (solution_unique n K Rg supports u R zero zero ST S1); auto.
  - intros i Hi. rewrite (R0 i Hi). unfold mulv, zero. rewrite sum_zero; [ring|]. intros; ring.
  - intros i Hi Si. reflexivity.
  - intros i Hi Si. rewrite (S3 i Hi Si). apply U0'; auto.
Qed.

Lemma unloaded_loop : forall fuel iter d U K Rg last, (iter < 100)%nat ->
  (forall d k, veq n d zero -> exists K, build d k = Ok K /\ stable n K supports) ->
  stable n K supports -> veq n d zero -> veq n Rg zero -> (forall i, (i < n)%nat -> supports i = true -> U i == 0) ->
  (exists v, o_d last = Some v /\ veq n v zero) -> o_iter last = iter ->
  exists o, loop fuel iter d U K Rg last = Ok o /\
    ((100 <= iter + fuel)%nat -> o_d o = None /\ o_Q o = None /\ o_iter o = 100%nat) /\
    ((iter + fuel < 100)%nat -> o_iter o = (iter + fuel)%nat /\ exists v, o_d o = Some v /\ veq n v zero).
Proof.
  induction fuel as [|f IH]; intros iter d U K Rg last IT HB ST D0 R0 U0' HV HI.
  - exists last. split; [reflexivity|]. split; [lia|]. intros _. split; [lia|auto].
  - unfold loop. cbn [WinklerModel.loop]. destruct (proj2 (solve_equations_succeeds solve n K Rg U supports SO) ST) as [[u R] SE].
    rewrite SE. destruct (unloaded_pass K Rg U u R ST R0 U0' SE) as [UZ RZ]. cbv zeta.
    set (d' := fun i => d i + u i).
    assert (DZ : veq n d' zero). { intros i Hi. unfold d'. rewrite (D0 i Hi), (UZ i Hi). reflexivity. }
    destruct (HB d' Secant DZ) as (Ks & BS & STs). rewrite BS. cbn [bind].
    set (Rg' := fun i => F i - R i + - mulv n Ks d' i).
    assert (RZ' : veq n Rg' zero).
    { intros i Hi. unfold Rg'. rewrite (F0 i Hi), (RZ i Hi). unfold mulv. rewrite sum_zero; [unfold zero; ring|].
      intros j Hj. rewrite (DZ j Hj). unfold zero. ring. }
    assert (TZ : tol2 n F R == 0).
    { unfold tol2, norm2. rewrite (sum_squares_zero (fun i => F i - R i)); [ring|]. intros i Hi. rewrite (F0 i Hi), (RZ i Hi). reflexivity. }
    assert (EZ : 0 <= free_norm2 n supports Rg').
    { apply sum_nonneg. intros i Hi. destruct (supports i); [lra|apply square_nonneg]. }
    rewrite (proj2 (Qltb_false _ _)) by lra. cbn [andb].
    destruct (Nat.eqb_spec (S iter) 100) as [E|N].
    + eexists. split; [reflexivity|]. cbn. split; [auto|]. intros L. exfalso. lia.
    + destruct (HB d' Tangent DZ) as (Kt & BT & STt). rewrite BT. cbn [bind].
      destruct (IH (S iter) d' zero Kt Rg'
        {| o_d := Some d'; o_Q := Some R; o_iter := S iter; o_err := Some (free_norm2 n supports Rg'); o_tol := Some (tol2 n F R); o_hist := d' :: o_hist last |})
        as (o & A & B & C); auto; [lia|reflexivity|exists d'; auto|].
      exists o. split; [exact A|]. split; [intros; apply B; lia|]. intros. replace (iter + S f)%nat with (S iter + f)%nat by lia. apply C. lia.
Qed.

Lemma unloaded : (forall d k, veq n d zero -> exists K, build d k = Ok K /\ stable n K supports) ->
  (forall i, (i < n)%nat -> supports i = true -> U0 i == 0) -> forall max_iter,
  exists o, winkler max_iter = Ok o /\
    ((99 <= max_iter)%nat -> o_d o = None /\ o_Q o = None /\ o_iter o = 100%nat) /\
    ((max_iter < 99)%nat -> o_iter o = S max_iter /\ exists v, o_d o = Some v /\ veq n v zero).
Proof.
  intros HB HU m. destruct (HB zero Initial) as (K & B & ST); [intros i Hi; reflexivity|].
  unfold winkler, WinklerModel.winkler. rewrite B. cbn [bind].
  match goal with |- context [WinklerModel.loop _ _ _ _ _ _ _ _ _ _ _ _ ?l] => pose proof (unloaded_loop (S m) 0 zero U0 K F l) as G end.
  destruct G as (o & A & B' & C); auto; [lia|intros i Hi; reflexivity|exists zero; split; [reflexivity|intros i Hi; reflexivity]|].
  exists o. split; [exact A|]. split; [intros; apply B'; lia|]. intros. apply C. lia.
Qed.
End Loop.

(** ** Linear range: when secant and tangent stiffness at the first solution equal the initial one *)
Section Linear.
Variables (solve : solver) (n : nat) (build : vec -> kind -> res mat).
Variables (F U0 : vec) (supports : nat -> bool).
Hypothesis SO : solver_ok solve.

Definition same (K K' : mat) : Prop := forall i j, (i < n)%nat -> (j < n)%nat -> K i j == K' i j.

Lemma same_mulv : forall K K' u, same K K' -> veq n (mulv n K u) (mulv n K' u).
Proof. intros K K' u H i Hi. apply mulv_ext; intros; [apply H; auto|reflexivity]. Qed.

Lemma same_stable : forall K K' r, same K K' -> stable n K r -> stable n K' r.
Proof.
  intros K K' r H ST v V0 KV. apply ST; auto. intros i Hi Ri. rewrite (same_mulv K K' v H i Hi). apply KV; auto.
Qed.

Lemma linear_range : forall K U1 R1, build zero Initial = Ok K -> solve_equations solve n K F U0 supports = Some (U1, R1) ->
  (forall d k, veq n d U1 -> k = Secant \/ k = Tangent -> exists K', build d k = Ok K' /\ same K' K) ->
  (exists i, (i < n)%nat /\ ~ F i == 2 * R1 i) -> forall max_iter, (1 <= max_iter)%nat ->
  exists o v R, winkler solve n build F U0 supports max_iter = Ok o /\ o_iter o = 2%nat /\ o_d o = Some v /\ veq n v U1 /\ o_Q o = Some R /\ veq n R R1 /\
    exists t, o_tol o = Some t /\ t == (1 # 100000000) * force2 n (fun i => F i - 2 * R1 i).
Proof.
  intros K U1 R1 B S1 HL NZ m Hm. unfold winkler. rewrite B. cbn [bind].
  destruct m as [|m]; [lia|]. cbn [loop]. rewrite S1. cbv zeta.
  destruct (solve_equations_sound solve n K F U0 supports U1 R1 SO S1) as (A1 & A2 & A3).
  assert (ST : stable n K supports) by (apply (solve_equations_succeeds solve n K F U0 supports SO); eauto).
  set (d1 := fun i => zero i + U1 i). assert (D1 : veq n d1 U1) by (intros i Hi; unfold d1, zero; ring).
  destruct (HL d1 Secant D1 (or_introl eq_refl)) as (Ks & BS & SK). rewrite BS. cbn [bind Nat.ltb Nat.leb]. rewrite andb_false_r. cbn [Nat.eqb].
  destruct (HL d1 Tangent D1 (or_intror eq_refl)) as (Kt & BT & TK). rewrite BT. cbn [bind].
  set (Rg := fun i => F i - R1 i + - mulv n Ks d1 i).
  assert (RG : veq n Rg (fun i => - (2) * R1 i)).
  { intros i Hi. unfold Rg. rewrite (same_mulv Ks K d1 SK i Hi). rewrite (mulv_ext n K K d1 U1 i) by (auto; intros; reflexivity).
    rewrite (A1 i Hi). ring. }
  assert (STt : stable n Kt supports) by (apply (same_stable K Kt); auto; intros i j Hi Hj; symmetry; apply TK; auto).
  destruct (proj2 (solve_equations_succeeds solve n Kt Rg zero supports SO) STt) as [[u2 R2] S2]. rewrite S2.
  destruct (solve_equations_sound solve n Kt Rg zero supports u2 R2 SO S2) as (B1 & B2 & B3).
  destruct (solution_unique n Kt Rg supports u2 R2 zero (fun i => 2 * R1 i) STt B1) as [UZ RZ]; auto.
  { intros i Hi. rewrite (RG i Hi). unfold mulv, zero. rewrite sum_zero; [ring|]. intros; ring. }
  { intros i Hi Si. rewrite (A2 i Hi Si). ring. }
  { intros i Hi Si. rewrite (B3 i Hi Si). reflexivity. }
  set (d2 := fun i => d1 i + u2 i). assert (D2 : veq n d2 U1).
  { intros i Hi. unfold d2. rewrite (UZ i Hi), (D1 i Hi). unfold zero. ring. }
  destruct (HL d2 Secant D2 (or_introl eq_refl)) as (K2 & BS2 & SK2). cbv zeta.
  match goal with |- context [bind (build ?x Secant)] => change x with d2 end.
  rewrite BS2. cbn [bind].
  set (Rg2 := fun i => F i - R2 i + - mulv n K2 d2 i).
  assert (E0 : free_norm2 n supports Rg2 == 0).
  { unfold free_norm2. apply sum_zero. intros i Hi. destruct (supports i) eqn:Si; [reflexivity|].
    assert (X : Rg2 i == 0).
    { unfold Rg2. rewrite (same_mulv K2 K d2 SK2 i Hi). rewrite (mulv_ext n K K d2 U1 i) by (auto; intros; reflexivity).
      rewrite (A1 i Hi), (A2 i Hi Si), (B2 i Hi Si). ring. }
    rewrite X. ring. }
  assert (T0 : 0 < tol2 n F R2).
  { destruct NZ as (i & Hi & Ni). unfold tol2. apply mul_pos; [reflexivity|]. unfold norm2.
    assert (NN : 0 <= sum n (fun i => (F i - R2 i) * (F i - R2 i))) by (apply sum_nonneg; intros; apply square_nonneg).
    destruct (Qlt_le_dec 0 (sum n (fun i => (F i - R2 i) * (F i - R2 i)))) as [|L]; auto. exfalso. apply Ni.
    assert (Z : sum n (fun i => (F i - R2 i) * (F i - R2 i)) == 0) by lra.
    assert (Y : forall m f, (forall i, (i < m)%nat -> 0 <= f i) -> sum m f == 0 -> forall i, (i < m)%nat -> f i == 0).
    { clear. induction m as [|m IH]; intros f P S0 i Hi; [lia|]. cbn [sum] in S0.
      assert (A : 0 <= sum m f) by (apply sum_nonneg; intros; apply P; lia). pose proof (P m ltac:(lia)).
      destruct (Nat.eq_dec i m) as [->|]; [lra|]. apply IH; try lia; [intros; apply P; lia|lra]. }
    pose proof (Y n _ (fun i _ => square_nonneg (F i - R2 i)) Z i Hi) as W. cbv beta in W. apply Qmult_integral in W. rewrite <- (RZ i Hi). lra. }
  rewrite (proj2 (Qltb_true _ _)) by lra. cbn [andb Nat.ltb Nat.leb].
  assert (STf : stable n K2 supports) by (apply (same_stable K K2); auto; intros i j Hi Hj; symmetry; apply SK2; auto).
  destruct (proj2 (solve_equations_succeeds solve n K2 F U0 supports SO) STf) as [[Uf Rf] SF]. rewrite SF.
  destruct (solve_equations_sound solve n K2 F U0 supports Uf Rf SO SF) as (C1 & C2 & C3).
  destruct (solution_unique n K2 F supports Uf Rf U1 R1 STf C1) as [_ RE]; auto.
  { intros i Hi. rewrite (same_mulv K2 K U1 SK2 i Hi). apply A1; auto. }
  { intros i Hi Si. rewrite (C3 i Hi Si), (A3 i Hi Si). reflexivity. }
  eexists. exists d2, Rf. split; [reflexivity|]. cbn [o_iter o_d o_Q o_tol]. split; [reflexivity|]. split; [reflexivity|]. split; [exact D2|]. split; [reflexivity|]. split; [exact RE|].
  eexists. split; [reflexivity|]. unfold tol2, norm2, force2. apply Qmult_comp; [reflexivity|]. apply sum_ext. intros i Hi. rewrite (RZ i Hi). ring.
Qed.
End Linear.
