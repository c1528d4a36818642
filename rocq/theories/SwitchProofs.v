(** Models that differ by springs without resistance. *)
From Coq Require Import List Bool Arith ZArith QArith Qabs Lia Lqa Setoid.
From Verif Require Import Base LinAlg PileModel BeamModel BeamProofs SolveModel SolveSpec SolveProofs SpringModel SpringProofs SoilProofs SpringProper WinklerModel TwinProofs UnitSpec UnitWitness FullModel SwitchSpec.
Import ListNotations.
Local Open Scope Q_scope.

(** ** Springs of zeros *)
Lemma blank_py : forall u k, py_spring u no_points k = Ok 0. Proof. reflexivity. Qed.
Lemma blank_tz : forall u k, tz_spring u no_points k = Ok 0. Proof. reflexivity. Qed.
Lemma blank_mt : forall u p pp k, mt_spring u p pp (repeat no_points 15) k = Ok 0. Proof. reflexivity. Qed.
Lemma blank_base : forall u k, base_spring u no_points k = Ok 0. Proof. reflexivity. Qed.
Lemma blank_axial : forall u k, base_axial_spring u no_points k = Ok 0. Proof. reflexivity. Qed.

Lemma collect_zero : forall n (f : nat -> res (Q * Q)), (forall e, (e < n)%nat -> f e = Ok (0, 0)) -> exists l, collect n f = Ok l /\ forall e, kpair l e = (0, 0).
Proof.
  intros n f H. assert (G : exists l, collect n f = Ok l /\ forall q, In q l -> q = (0, 0)).
  { induction n as [|n IH]; [exists []; split; [reflexivity|intros q []]|]. destruct IH as (l & E & Z); [intros e He; apply H; lia|]. exists (l ++ [(0, 0)]). cbn [collect]. rewrite E. cbn [bind]. rewrite (H n) by lia. cbn [bind].
    split; [reflexivity|]. intros q I. apply in_app_iff in I. destruct I as [I|[<-|[]]]; [apply Z; exact I|reflexivity]. }
  destruct G as (l & E & Z). exists l. split; [exact E|]. intros e. unfold kpair. destruct (nth_in_or_default e l (0, 0)) as [I|I]; [apply Z; exact I|exact I].
Qed.

Lemma madd_zero : forall a b K, same_all a b -> (forall i j, K i j == 0) -> same_all (madd a K) b.
Proof. intros a b K E Z i j. unfold madd. rewrite (E i j), (Z i j). ring. Qed.
Lemma elem_py_zero : forall L i j, elem_py L 0 0 i j == 0. Proof. intros. unfold elem_py. cbv zeta. ring. Qed.
Lemma elem_tz_zero : forall L i j, elem_tz L 0 0 i j == 0. Proof. intros. unfold elem_tz. cbv zeta. ring. Qed.
Lemma mt_matrix_zero : forall c i j, mt_matrix c 0 0 i j == 0. Proof. intros [[[A B] C] D] i j. unfold mt_matrix. ring. Qed.

(** [M'] is [M] without some springs that hold zeros *)
Record barer (M M' : wmodel) : Prop := {
  ba_n : w_n M' = w_n M; ba_mech : w_mech M' = w_mech M; ba_L : w_L M' = w_L M;
  ba_py : w_py M' = w_py M \/ (w_py M' = None /\ exists py, w_py M = Some py /\ forall e j, py e j = no_points);
  ba_tz : w_tz M' = w_tz M \/ (w_tz M' = None /\ exists tz, w_tz M = Some tz /\ forall e j, tz e j = no_points);
  ba_mt : (w_mt M' = None /\ w_mt M = None) \/ (w_mt M' = w_mt M /\ w_mtc M' = w_mtc M /\ w_py M' = w_py M) \/
          (w_mt M' = None /\ exists mt py, w_mt M = Some mt /\ w_py M = Some py /\ (forall e j, mt e j = repeat no_points 15) /\ forall e j u, exists s, py_spring u (py e j) Secant = Ok s);
  ba_hb : w_hb M' = w_hb M \/ (w_hb M' = None /\ w_hb M = Some no_points);
  ba_mb : w_mb M' = w_mb M \/ (w_mb M' = None /\ w_mb M = Some no_points);
  ba_qz : w_qz M' = w_qz M \/ (w_qz M' = None /\ w_qz M = Some no_points) }.

Section Barer.
Variables (M M' : wmodel) (u u' : vec) (k : kind).
Hypothesis A : barer M M'.
Hypothesis H : veq (SpringModel.size M) u u'.

Lemma barer_elements : req elems_eq (soil_elements M u k) (soil_elements M' u' k).
Proof using A H.
  destruct A as [N ME LL PY TZ MT _ _ _]. unfold soil_elements. rewrite ME, LL. unfold py_stiffness, tz_stiffness, mt_stiffness. rewrite N. apply (req_bind _ _ elems_eq).
  - destruct PY as [->|(-> & py & -> & Z)]; cbn [opt_res].
    + unfold opt_res. destruct (w_py M) as [py|]; [|intros e i j; reflexivity]. eapply req_bind.
      * apply collect_comp. intros e He. apply both_comp. intros j Hj. apply py_spring_comp, spring_disp_comp; auto.
      * intros l l' HL e. destruct (kpair_comp l l' e HL). apply madd_comp; [intros i j; reflexivity|apply elem_py_comp; auto].
    + destruct (collect_zero (w_n M) (fun e => both (fun j => py_spring (spring_disp (w_n M) u 1 e j) (py e j) k))) as (l & -> & ZL); [intros e _; unfold both; rewrite !Z; reflexivity|]. cbn [bind req].
      intros e. rewrite ZL. cbn [fst snd]. apply madd_zero; [intros i j; reflexivity|apply elem_py_zero].
  - intros k1 k1' H1. apply (req_bind _ _ elems_eq).
    + destruct TZ as [->|(-> & tz & -> & Z)]; cbn [opt_res].
      * unfold opt_res. destruct (w_tz M) as [tz|]; [|exact H1]. eapply req_bind.
        -- apply collect_comp. intros e He. apply both_comp. intros j Hj. apply tz_spring_comp, spring_disp_comp; auto; lia.
        -- intros l l' HL e. destruct (kpair_comp l l' e HL). apply madd_comp; [apply H1|apply elem_tz_comp; auto].
      * destruct (collect_zero (w_n M) (fun e => both (fun j => tz_spring (spring_disp (w_n M) u 0 e j) (tz e j) k))) as (l & -> & ZL); [intros e _; unfold both; rewrite !Z; reflexivity|]. cbn [bind req].
        intros e. rewrite ZL. cbn [fst snd]. apply madd_zero; [apply H1|apply elem_tz_zero].
    + intros k2 k2' H2. destruct MT as [[-> ->]|[(-> & -> & ->)|(-> & mt & py & -> & -> & Z & OK)]]; cbn [opt_res]; [exact H2| |].
      * unfold opt_res. destruct (w_mt M) as [mt|]; [|exact H2]. destruct (w_py M) as [py|]; [|reflexivity]. eapply req_bind.
        -- apply collect_comp. intros e He. apply both_comp. intros j Hj. eapply req_bind; [apply py_spring_comp, spring_disp_comp; auto|].
           intros x y E. apply mt_spring_comp; [apply spring_disp_comp; auto|]. apply Qmult_comp; [exact E|apply spring_disp_comp; auto].
        -- intros l l' HL e. destruct (kpair_comp l l' e HL). apply madd_comp; [apply H2|apply mt_matrix_comp; auto].
      * destruct (collect_zero (w_n M) (fun e => both (fun j => bind (py_spring (spring_disp (w_n M) u 1 e j) (py e j) Secant) (fun ks =>
           mt_spring (spring_disp (w_n M) u 2 e j) (ks * spring_disp (w_n M) u 1 e j) (map snd (py e j)) (mt e j) k)))) as (l & -> & ZL).
        { intros e _. unfold both. rewrite !Z. destruct (OK e 0%nat (spring_disp (w_n M) u 1 e 0)) as (s & ->). destruct (OK e 1%nat (spring_disp (w_n M) u 1 e 1)) as (s' & ->). reflexivity. }
        cbn [bind req]. intros e. rewrite ZL. cbn [fst snd]. apply madd_zero; [apply H2|apply mt_matrix_zero].
Qed.

Lemma barer_size : SpringModel.size M' = SpringModel.size M.
Proof using A. unfold SpringModel.size. rewrite (ba_n _ _ A). reflexivity. Qed.

Lemma barer_base : forall p o o' f K K', (1 <= p <= 3)%nat -> (forall c x y, x == y -> req Qeq (f x c k) (f y c k)) -> (forall x, f x no_points k = Ok 0) ->
  o' = o \/ (o' = None /\ o = Some no_points) -> same_all K K' -> req same_all (add_base M p o f u k K) (add_base M' p o' f u' k K').
Proof using A H.
  intros p o o' f K K' Hp Hf Z [->|[-> ->]] HK; unfold add_base; rewrite barer_size; [exact (add_base_comp M u u' k H p o f K K' Hp Hf HK)|].
  cbn [opt_res]. rewrite Z. cbn [bind req]. intros i j. unfold add_diag. destruct (_ && _)%bool; rewrite (HK i j); [ring|reflexivity].
Qed.

Lemma barer_build : req same_all (SpringModel.build M u k) (SpringModel.build M' u' k).
Proof using A H.
  unfold SpringModel.build. rewrite (ba_n _ _ A). eapply req_bind; [apply barer_elements|]. intros a b E.
  eapply req_bind; [apply barer_base; [lia| |intros; apply blank_base|exact (ba_hb _ _ A)|apply jit_build_comp, E]; intros; apply base_spring_comp; auto|]. intros K1 K1' E1.
  eapply req_bind; [apply barer_base; [lia| |intros; apply blank_base|exact (ba_mb _ _ A)|exact E1]; intros; apply base_spring_comp; auto|]. intros K2 K2' E2.
  apply barer_base; [lia| |intros; apply blank_axial|exact (ba_qz _ _ A)|exact E2]. intros; apply base_axial_spring_comp; auto.
Qed.
End Barer.

Lemma barer_winkler : forall solve M M' F U0 r max_iter, solver_ok solve -> barer M M' ->
  alike (SpringModel.size M) (fun _ => 1) (fun _ => 1) (winkler_model solve M F U0 r max_iter) (winkler_model solve M' F U0 r max_iter).
Proof.
  intros solve M M' F U0 r mi SO A. apply outcomes_alike with (beta := 1). unfold winkler_model. rewrite (barer_size M M' A).
  apply twin_winkler; auto; try (intros; cbn; lra); try (intros; discriminate).
  - intros d d' k HD. assert (V : veq (SpringModel.size M) d d') by (intros i Hi; rewrite (HD i Hi); ring).
    pose proof (barer_build M M' d d' k A V) as BC. destruct (SpringModel.build M d k); destruct (SpringModel.build M' d' k); cbn [req] in *; try contradiction; auto.
    intros i j _ _. rewrite (BC i j). ring.
  - intros i Hi. ring.
  - intros i Hi. ring.
Qed.

Lemma alike_answer : forall n (a b : res outcome), alike n (fun _ => 1) (fun _ => 1) a b -> same_answer n (bind a (fun r => Ok (Some r))) (bind b (fun r => Ok (Some r))).
Proof.
  intros n [r|e] [r'|e'] H; cbn [alike bind same_answer] in *; auto; try contradiction. destruct H as (E & D & Q & _). split; [auto|]. unfold reported, same_numbers in *.
  split; [destruct (o_d r), (o_d r'); try contradiction; auto|destruct (o_Q r), (o_Q r'); try contradiction; auto]; intros i Hi; [rewrite (D i Hi)|rewrite (Q i Hi)]; ring.
Qed.
