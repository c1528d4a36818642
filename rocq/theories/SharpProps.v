(** C140, C68: the sixteen parameters of a custom PISA layer reach the curves they are given for; a point of a p-y curve of sand that is
    not a number leaves a row of moments that are not numbers, and a curvature given as a function can bring this about. *)
From Coq Require Import Reals List Bool Arith Lra Lia.
From Verif Require Import Base ConicModel ConicProofs PisaModel LateralModel AxialModel FieldModel ObjectModel.
Import ListNotations.
Local Open Scope R_scope.

(** ** C140 *)
(** [f] gives the values [x n k y] at the place [q] *)
Definition gives (f : vfour) (q : place) (x n k y : R) : Prop :=
  current_value (v_X f) (q_depth q) (q_height q) (q_X q) = Ok x /\ current_value (v_n f) (q_depth q) (q_height q) (q_X q) = Ok n /\
  current_value (v_k f) (q_depth q) (q_height q) (q_X q) = Ok k /\ current_value (v_Y f) (q_depth q) (q_height q) (q_X q) = Ok y.

Lemma held_value : forall v q, custom_value (held v) q = current_value v (q_depth q) (q_height q) (q_X q).
Proof. intros [x|[|a [|b [|c l]]]|f|f] q; reflexivity. Qed.
Lemma held_given : forall f q x n k y K, gives f q x n k y -> with_four (held_four f) q K = K x n k y.
Proof. intros f q x n k y K (A & B & C & D). unfold with_four, held_four. cbn [f_X f_n f_k f_Y]. rewrite !held_value, A, B, C, D. reflexivity. Qed.

Theorem C140_custom_sand : forall G0 py mt Hb Mb mu u idx q ymax n g x1 n1 k1 y1 x2 n2 k2 y2 x3 n3 k3 y3 x4 n4 k4 y4, q_depth q <= q_height q ->
  current_value G0 (q_depth q) (q_height q) (q_X q) = Ok g -> gives py q x1 n1 k1 y1 -> gives mt q x2 n2 k2 y2 -> gives Hb q x3 n3 k3 y3 -> gives Mb q x4 n4 k4 y4 ->
  py_curve (held_sand G0 py mt Hb Mb mu) u q ymax n = py_custom_sand (q_sig q) g (q_D q) x1 n1 k1 y1 n /\
  Hb_spring_fct (held_sand G0 py mt Hb Mb mu) q ymax n = Hb_custom_sand (q_sig q) g (q_D q) x3 n3 k3 y3 n /\
  Mb_spring_fct (held_sand G0 py mt Hb Mb mu) q ymax n = Mb_custom_sand (q_sig q) g (q_D q) x4 n4 k4 y4 n /\
  forall ys p, py_custom_sand (q_sig q) g (q_D q) x1 n1 k1 y1 n = Ok (ys, map Some p) ->
    mt_curve (held_sand G0 py mt Hb Mb mu) u idx q ymax n = mt_rows n (map Some p) (fun v => match v with Some r => mt_custom_sand (q_sig q) g r (q_D q) x2 n2 k2 y2 n | None => Err ValueError end).
Proof.
  intros G0 py mt Hb Mb mu u idx q ymax n g x1 n1 k1 y1 x2 n2 k2 y2 x3 n3 k3 y3 x4 n4 k4 y4 IN EG P1 P2 P3 P4.
  assert (IL : forall (A : Type) (r : res A), inside_layer q r = r) by (intros A r; unfold inside_layer; destruct (Rlt_dec (q_height q) (q_depth q)); [lra|reflexivity]).
  unfold held_sand. split; [|split; [|split]].
  - cbn [py_curve]. rewrite held_value, EG. cbn [bind]. rewrite (held_given _ _ _ _ _ _ _ P1). reflexivity.
  - cbn [Hb_spring_fct]. rewrite IL, held_value, EG. cbn [bind]. rewrite (held_given _ _ _ _ _ _ _ P3). reflexivity.
  - cbn [Mb_spring_fct]. rewrite IL, held_value, EG. cbn [bind]. rewrite (held_given _ _ _ _ _ _ _ P4). reflexivity.
  - intros ys p EP. cbn [mt_curve]. rewrite held_value, EG. cbn [bind]. rewrite (held_given _ _ _ _ _ _ _ P1), EP. cbn [bind snd].
    unfold mt_rows. f_equal. clear EP. rewrite firstn_map. generalize (firstn n p). induction l as [|a t IH]; [reflexivity|]. cbn [map mapM of_p]. rewrite (held_given _ _ _ _ _ _ _ P2), IH. reflexivity.
Qed.
Print Assumptions C140_custom_sand.

Theorem C140_custom_clay : forall Su G0 py mt Hb Mb mu u idx q ymax n s g x1 n1 k1 y1 x2 n2 k2 y2 x3 n3 k3 y3 x4 n4 k4 y4, q_depth q <= q_height q ->
  current_value Su (q_depth q) (q_height q) (q_X q) = Ok s -> current_value G0 (q_depth q) (q_height q) (q_X q) = Ok g -> gives py q x1 n1 k1 y1 -> gives mt q x2 n2 k2 y2 -> gives Hb q x3 n3 k3 y3 -> gives Mb q x4 n4 k4 y4 ->
  py_curve (held_clay Su G0 py mt Hb Mb mu) u q ymax n = py_custom_clay s g (q_D q) x1 n1 k1 y1 n /\
  Hb_spring_fct (held_clay Su G0 py mt Hb Mb mu) q ymax n = Hb_custom_clay s g (q_D q) x3 n3 k3 y3 n /\
  Mb_spring_fct (held_clay Su G0 py mt Hb Mb mu) q ymax n = Mb_custom_clay s g (q_D q) x4 n4 k4 y4 n /\
  forall c, py_custom_clay s g (q_D q) x1 n1 k1 y1 n = Ok c ->
    mt_curve (held_clay Su G0 py mt Hb Mb mu) u idx q ymax n = mt_rows n (snd c) (fun _ => mt_custom_clay s g (q_D q) x2 n2 k2 y2 n).
Proof.
  intros Su G0 py mt Hb Mb mu u idx q ymax n s g x1 n1 k1 y1 x2 n2 k2 y2 x3 n3 k3 y3 x4 n4 k4 y4 IN ES EG P1 P2 P3 P4.
  assert (IL : forall (A : Type) (r : res A), inside_layer q r = r) by (intros A r; unfold inside_layer; destruct (Rlt_dec (q_height q) (q_depth q)); [lra|reflexivity]).
  unfold held_clay. split; [|split; [|split]].
  - cbn [py_curve]. rewrite !held_value, ES, EG. cbn [bind]. rewrite (held_given _ _ _ _ _ _ _ P1). reflexivity.
  - cbn [Hb_spring_fct]. rewrite IL, !held_value, ES, EG. cbn [bind]. rewrite (held_given _ _ _ _ _ _ _ P3). reflexivity.
  - cbn [Mb_spring_fct]. rewrite IL, !held_value, ES, EG. cbn [bind]. rewrite (held_given _ _ _ _ _ _ _ P4). reflexivity.
  - intros c EP. cbn [mt_curve]. rewrite !held_value, ES, EG. cbn [bind]. rewrite (held_given _ _ _ _ _ _ _ P1), EP. cbn [bind snd].
    rewrite (held_given _ _ _ _ _ _ _ P2). reflexivity.
Qed.
Print Assumptions C140_custom_clay.

(** The middle of a layer from 100 to 120 kPa, with every kind of value *)
Definition mid : place := mkPlace 50 4 4 2 2 10 true.
Example C140_custom_case : gives (mkVFour (VFloat 100) (VFunction (fun X => X / 10)) (VList [6; 10]) (VList [7])) mid 100 (4 / 10) 8 7 /\ current_value (VList [100; 120]) (q_depth mid) (q_height mid) (q_X mid) = Ok 110.
Proof.
  assert (D : forall a b, at_depth a b 2 4 = Ok (a + 2 * (b - a) / 4)) by (intros a b; unfold at_depth, nonzero; destruct (Req_EM_T 4 0); [lra|f_equal; lra]).
  unfold gives, current_value, mid. cbn [q_depth q_height q_X v_X v_n v_k v_Y is_function parse bind fst snd]. rewrite !D. repeat split; f_equal; lra.
Qed.

(** ** C68 *)
Lemma rows_nth : forall n p row T M i, mt_rows n p row = Ok (T, M) -> (i < length p)%nat -> exists c, row (nth i p None) = Ok c /\ nth i T [] = fst c /\ nth i M [] = snd c.
Proof.
  intros n p row T M i H Hi. unfold mt_rows in H. destruct (mapM row (firstn n p)) as [cs|e] eqn:E; [|discriminate]. cbn [bind] in H. destruct (Nat.ltb n (length p)) eqn:B; [discriminate|]. apply Nat.ltb_ge in B.
  rewrite firstn_all2 in E by exact B. injection H as <- <-.
  assert (G : forall p cs i, mapM row p = Ok cs -> (i < length p)%nat -> length cs = length p /\ row (nth i p None) = Ok (nth i cs ([], []))).
  { clear. induction p as [|a p IH]; intros cs i E Hi; [cbn in Hi; lia|]. cbn [mapM] in E. destruct (row a) as [c|] eqn:R; [|discriminate]. cbn [bind] in E. destruct (mapM row p) as [t|] eqn:ET; [|discriminate]. cbn [bind] in E. injection E as <-.
    destruct i as [|i].
    - split; [|exact R]. cbn [length]. f_equal. destruct p as [|b p]; [cbn in ET; injection ET as <-; reflexivity|]. apply (IH t O eq_refl). cbn. lia.
    - cbn [length] in Hi. destruct (IH t i eq_refl ltac:(lia)) as [L N]. split; [cbn [length]; lia|exact N]. }
  destruct (G p cs i E Hi) as [L N]. assert (Hc : (i < length cs)%nat) by (rewrite L; exact Hi). exists (nth i cs ([], [])). split; [exact N|]. split.
  - rewrite app_nth1 by (rewrite map_length; exact Hc). rewrite (nth_indep _ [] (fst (([] : list R), ([] : list (option R))))) by (rewrite map_length; exact Hc). apply map_nth.
  - rewrite app_nth1 by (rewrite map_length; exact Hc). rewrite (nth_indep _ [] (snd (([] : list R), ([] : list (option R))))) by (rewrite map_length; exact Hc). apply map_nth.
Qed.

Definition pisa_sand (m : lateral_model) : Prop := match m with Dunkirk_sand _ _ _ | Custom_pisa_sand _ _ _ _ _ _ => True | _ => False end.

Theorem C68_missing_resistance : forall m u idx q ymax n c T M i, pisa_sand m -> py_curve m u q ymax n = Ok c -> mt_curve m u idx q ymax n = Ok (T, M) ->
  (i < length (snd c))%nat -> nth i (snd c) None = None -> Forall (fun v => v = None) (nth i M []).
Proof.
  assert (G : forall n p f T M i, mt_rows n p (of_p f) = Ok (T, M) -> (i < length p)%nat -> nth i p None = None -> Forall (fun v => v = None) (nth i M [])).
  { intros n p f T M i H Hi Z. destruct (rows_nth n p _ T M i H Hi) as (c & E & _ & ->). rewrite Z in E. cbn [of_p] in E. destruct (f 0) as [c0|]; [|discriminate]. cbn [bind] in E.
    assert (X : c = (fst c0, map (fun _ => None) (snd c0))) by congruence. rewrite X. cbn [snd]. apply Forall_forall. intros v I. apply in_map_iff in I. destruct I as (w & <- & _). reflexivity. }
  intros m u idx q ymax n c T M i S HP HM Hi Z. destruct m; try contradiction S; cbn [py_curve mt_curve] in HP, HM.
  - destruct (value _ q); [|discriminate]. cbn [bind] in HP, HM. destruct (value _ q); [|discriminate]. cbn [bind] in HP, HM. rewrite HP in HM. cbn [bind] in HM. exact (G _ _ _ _ _ _ HM Hi Z).
  - destruct (custom_value _ q); [|discriminate]. cbn [bind] in HP, HM. rewrite HP in HM. cbn [bind] in HM. exact (G _ _ _ _ _ _ HM Hi Z).
Qed.
Print Assumptions C68_missing_resistance.

(** A layer with a curvature given as a function, which no validator looks at: the value -1 is taken. *)
Definition bent : four := mkFour (PNum 1) (PFun (fun _ => -1)) (PNum 4) (PNum 1).
Definition straight : four := mkFour (PNum 1) (PNum 0) (PNum 4) (PNum 1).
Definition bent_sand (g : R) : lateral_model := Custom_pisa_sand (PNum g) bent straight straight straight (mkMults (MNum 1) (MNum 1) (MNum 1) (MNum 1)).

Lemma conic_fine : forall n m, n = -1 \/ n = 0 -> (5 <= m)%nat -> exists f, conic 1 n 4 1 m = Ok (conic_x 1 m, map f (conic_x 1 m)) /\ (n = -1 -> f (1/10) = None).
Proof.
  intros n m Hn Hm.
  exists (fun x => match conic_point 1 n 4 1 x with Ok v => v | Err _ => Some 0 end). split.
  - unfold conic. destruct (Req_EM_T 1 0) as [|_]; [lra|]. destruct (Nat.ltb m 5) eqn:B; [apply Nat.ltb_lt in B; lia|]. rewrite (Rmax_right (1 / 1) 4) by lra. cbn zeta.
    rewrite (mapM_ok _ _ _ (fun x => match conic_point 1 n 4 1 x with Ok v => v | Err _ => Some 0 end)); [reflexivity|]. intros x I.
    assert (H0 : 0 <= x).
    { unfold conic_x in I. apply in_app_or in I. destruct I as [I|I].
      - apply in_map_iff in I. destruct I as (v & <- & [<-|[<-|[<-|[<-|[]]]]]); lra.
      - apply in_app_or in I. destruct I as [I|[<-|[]]]; [|lra]. unfold linspace in I. destruct (m - 5)%nat as [|[|k]]; [contradiction|destruct I as [<-|[]]; lra|].
        apply in_map_iff in I. destruct I as (j & <- & _). assert (P : 0 <= INR j / INR (S k)) by (apply Rmult_le_pos; [apply pos_INR|left; apply Rinv_0_lt_compat, lt_0_INR; lia]). lra. }
    unfold conic_point. destruct (Rlt_dec (Rabs (x - 1)) (1/100)); [reflexivity|]. destruct (Rlt_dec x 1); [|reflexivity]. destruct (Req_EM_T 1 0); [lra|]. cbn zeta.
    destruct (Rlt_dec _ 0); [reflexivity|]. destruct (Req_EM_T _ 0) as [Z|]; [exfalso|reflexivity].
    match type of Z with _ + sqrt ?d = 0 => pose proof (sqrt_pos d) as Q end. destruct Hn as [-> | ->]; lra.
  - intros ->. unfold conic_point. rewrite Rabs_left by lra. destruct (Rlt_dec _ (1/100)); [lra|]. destruct (Rlt_dec (1/10) 1); [|lra]. destruct (Req_EM_T 1 0); [lra|]. cbn zeta.
    destruct (Rlt_dec _ 0) as [|Z]; [reflexivity|]. exfalso. apply Z. lra.
Qed.

Theorem C68_curvature_function_refuted : forall g u idx q ymax n, 0 < g -> 0 < q_height q -> q_depth q <= q_height q -> (5 <= n)%nat ->
  make_lateral (bent_sand g) = Ok (bent_sand g) /\
  exists y p T M, py_spring_fct (bent_sand g) u q ymax n = Ok (y, p) /\ mt_spring_fct (bent_sand g) u idx q ymax n = Ok (T, M) /\
    length p = n /\ length M = n /\ nth 3 p (Some 0) = None /\ nth 3 M [] = repeat None n.
Proof.
  intros g u idx q ymax n Hg HH IN Hn. split.
  { unfold make_lateral, lateral_fields, bent_sand, bent, straight, four_fields, positive_or_function, curvature_field, field, mults_ok. cbn.
    unfold ltb, leb.
    repeat match goal with |- context [if ?d then _ else _] => match type of d with sumbool _ _ => destruct d; [cbn|exfalso; lra] end end. reflexivity. }
  assert (IL : forall (A : Type) (r : res A), inside_layer q r = r) by (intros A r; unfold inside_layer; destruct (Rlt_dec (q_height q) (q_depth q)); [lra|reflexivity]).
  destruct (conic_fine (-1) n (or_introl eq_refl) Hn) as (f & F & FN). destruct (conic_fine 0 n (or_intror eq_refl) Hn) as (h & H & _).
  assert (L : length (conic_x 1 n) = n).
  { unfold conic_x. rewrite !app_length. cbn [map length]. unfold linspace. destruct (n - 5)%nat as [|[|k]] eqn:E; cbn [length]; rewrite ?map_length, ?seq_length; lia. }
  assert (N3 : nth 3 (map f (conic_x 1 n)) (Some 0) = None) by (unfold conic_x; cbn [map app nth]; rewrite Rmult_1_r; apply FN; reflexivity).
  assert (NZ : forall A (r : res A), nonzero g r = r) by (intros A r; unfold nonzero; destruct (Req_EM_T g 0); [lra|reflexivity]).
  assert (NU : forall x, custom_value (PNum x) q = Ok x).
  { intros x. unfold custom_value, at_current_depth, in_layer. cbn [top_bottom bind fst snd]. unfold at_depth, nonzero. destruct (Req_EM_T (q_height q) 0); [lra|]. f_equal. field. exact n0. }
  set (xs := map (fun v => v * (q_sig q * q_D q / g)) (conic_x 1 n)).
  set (ps := map (option_map (fun v => v * (q_sig q * q_D q))) (map f (conic_x 1 n))).
  assert (PC : py_curve (bent_sand g) u q ymax n = Ok (xs, ps)).
  { unfold bent_sand. cbn [py_curve]. rewrite NU. cbn [bind]. unfold with_four, bent. cbn [f_X f_n f_k f_Y]. rewrite !NU. unfold custom_value. cbn [at_current_depth bind]. unfold py_custom_sand, scaled. rewrite F. cbn [bind fst snd]. apply NZ. }
  assert (Lp : length ps = n) by (unfold ps; rewrite !map_length; exact L).
  assert (Np : nth 3 ps None = None).
  { unfold ps. change (@None R) with (option_map (fun v => v * (q_sig q * q_D q)) None) at 1. rewrite map_nth. rewrite (nth_indep _ None (Some 0)) by (rewrite map_length, L; lia). rewrite N3. reflexivity. }
  set (row := fun v : option R => (map (fun w => w * (q_sig q / g)) (conic_x 1 n), map (fun w => match v with Some r => option_map (fun z => z * (r * q_D q)) w | None => None end) (map h (conic_x 1 n)))).
  assert (MC : mt_curve (bent_sand g) u idx q ymax n = Ok (map fst (map row ps), map snd (map row ps))).
  { unfold bent_sand in PC |- *. cbn [py_curve mt_curve] in PC |- *. rewrite NU in PC |- *. cbn [bind] in PC |- *. rewrite PC. cbn [bind snd]. unfold mt_rows. rewrite firstn_all2 by lia.
    rewrite (mapM_ok _ _ _ row).
    - cbn [bind]. rewrite Lp, Nat.ltb_irrefl, Nat.sub_diag. cbn [repeat]. rewrite !app_nil_r. reflexivity.
    - intros v _. assert (W : forall r, with_four straight q (fun X nn k Y => mt_custom_sand (q_sig q) g r (q_D q) X nn k Y n) = Ok (map (fun w => w * (q_sig q / g)) (conic_x 1 n), map (option_map (fun z => z * (r * q_D q))) (map h (conic_x 1 n)))).
      { intros r. unfold with_four, straight. cbn [f_X f_n f_k f_Y]. rewrite !NU. cbn [bind]. unfold mt_custom_sand, scaled. rewrite H. cbn [bind fst snd]. apply NZ. }
      destruct v as [r|]; cbn [of_p]; rewrite W; [reflexivity|]. cbn [bind fst snd]. unfold row. f_equal. f_equal. rewrite map_map. reflexivity. }
  unfold py_spring_fct, mt_spring_fct. rewrite PC. unfold bent_sand at 3. cbn [bind]. rewrite !IL, MC. cbn [bind].
  eexists _, _, _, _. split; [reflexivity|]. split; [reflexivity|]. cbn [fst snd scaled_by scaled_rows]. rewrite !map_length. split; [exact Lp|]. split; [exact Lp|]. split.
  - cbn [scaled_by snd]. rewrite (nth_indep _ (Some 0) None) by (rewrite map_length, Lp; lia). change (@None R) with (option_map (fun v => v * at_X (p_multiplier (bent_sand g)) (q_X q)) None) at 1. rewrite map_nth, Np. reflexivity.
  - rewrite map_map, map_map. rewrite (nth_indep _ [] ((fun x => map (option_map (fun v => v * at_X (m_multiplier (bent_sand g)) (q_X q))) (snd (row x))) None)) by (rewrite map_length, Lp; lia).
    rewrite (map_nth (fun x => map (option_map (fun v => v * at_X (m_multiplier (bent_sand g)) (q_X q))) (snd (row x)))), Np. unfold row. cbn [snd]. rewrite !map_map. cbn [option_map].
    rewrite <- L at 2. generalize (conic_x 1 n). induction l as [|a t IH]; [reflexivity|]. cbn [map length repeat]. rewrite IH. reflexivity.
Qed.
Print Assumptions C68_curvature_function_refuted.

Example C68_curvature_function_case : 0 < q_height mid /\ q_depth mid <= q_height mid /\ 0 < 110 /\ (5 <= 15)%nat.
Proof. cbn. repeat split; try lra; lia. Qed.
