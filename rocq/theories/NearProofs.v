(** Piles in soil whose stiffnesses are known up to a factor. *)
From Coq Require Import List Bool Arith ZArith QArith Qabs Lia Lqa Setoid.
From Verif Require Import Base LinAlg PileModel BeamModel BeamSpec BeamProofs SolveModel SolveSpec SolveProofs ForceProofs SpringModel SpringSpec SpringProofs SoilProofs SpringProper WinklerModel EquilSpec EquilProofs ElasticSpec ElasticProofs StiffSpec StiffProofs WorkSpec WorkProofs SturdySpec SturdyProofs NearSpec.
Import ListNotations.
Local Open Scope Q_scope.

(** ** Energies *)
Lemma energy_mscale : forall n c K v, energy n (fun i j => c * K i j) v == c * energy n K v.
Proof.
  intros n c K v. unfold energy, dot. rewrite <- sum_scale. apply sum_ext. intros i Hi. unfold mulv.
  assert (E : sum n (fun j => c * K i j * v j) == c * sum n (fun j => K i j * v j)) by (rewrite <- sum_scale; apply sum_ext; intros; ring). rewrite E. ring.
Qed.
Lemma dot_scale_l : forall n c u v, dot n (fun i => c * u i) v == c * dot n u v.
Proof. intros. unfold dot. rewrite <- sum_scale. apply sum_ext. intros; ring. Qed.
Lemma dot_scale_r : forall n c u v, dot n u (fun i => c * v i) == c * dot n u v.
Proof. intros. unfold dot. rewrite <- sum_scale. apply sum_ext. intros; ring. Qed.
Lemma mulv_scaled : forall n K c x, veq n (mulv n K (fun i => c * x i)) (fun i => c * mulv n K x i).
Proof. intros n K c x i Hi. apply mulv_scale. Qed.

(** energy of [x + t y] *)
Lemma energy_line : forall n K x y t, symmetric n K -> energy n K (fun i => x i + t * y i) == energy n K x + 2 * t * dot n x (mulv n K y) + t * t * energy n K y.
Proof.
  intros n K x y t SY. rewrite (energy_plus n K x (fun i => t * y i) SY), dot_scale_l, (symmetric_work n K y x SY). unfold energy at 2.
  rewrite dot_scale_l. rewrite (dot_ext n y (mulv n K (fun i => t * y i)) y (fun i => t * mulv n K y i)); [|intros i Hi; reflexivity|apply mulv_scaled]. rewrite dot_scale_r. unfold energy. ring.
Qed.

Lemma div_mul : forall a b, ~ b == 0 -> a / b * b == a.
Proof. intros. field. assumption. Qed.

(** Cauchy and Schwarz *)
Lemma work_square : forall n K x y, symmetric n K -> psd n K -> dot n x (mulv n K y) * dot n x (mulv n K y) <= energy n K x * energy n K y.
Proof.
  intros n K x y SY PS. set (w := dot n x (mulv n K y)). pose proof (PS x) as PX. pose proof (PS y) as PY.
  assert (L : forall t, 0 <= energy n K x + 2 * t * w + t * t * energy n K y) by (intros t; pose proof (PS (fun i => x i + t * y i)) as H; rewrite (energy_line n K x y t SY) in H; exact H).
  destruct (Qlt_le_dec 0 (energy n K y)) as [P|Z].
  - set (b := energy n K y) in *. set (a := energy n K x) in *. specialize (L (- (w / b))).
    assert (E : a + 2 * - (w / b) * w + - (w / b) * - (w / b) * b == a - w * w / b) by (field; lra). rewrite E in L.
    assert (D : w * w / b <= a) by lra. pose proof (Qmult_le_compat_r _ _ b D ltac:(lra)) as G. rewrite div_mul in G by lra. exact G.
  - assert (E0 : energy n K y == 0) by lra. rewrite E0. destruct (Qeq_dec w 0) as [W|W]; [rewrite W; lra|]. exfalso.
    specialize (L (- ((energy n K x + 1) / (2 * w)))). rewrite E0 in L.
    assert (E : energy n K x + 2 * - ((energy n K x + 1) / (2 * w)) * w + - ((energy n K x + 1) / (2 * w)) * - ((energy n K x + 1) / (2 * w)) * 0 == -(1)) by (field; exact W).
    rewrite E in L. lra.
Qed.

Lemma dot_mminus : forall n A B u v, dot n u (mulv n (fun i j => A i j - B i j) v) == dot n u (mulv n A v) - dot n u (mulv n B v).
Proof. intros. unfold dot. rewrite <- sum_minus. apply sum_ext. intros i Hi. unfold mulv. assert (E : sum n (fun j => (A i j - B i j) * v j) == sum n (fun j => A i j * v j) - sum n (fun j => B i j * v j)) by (rewrite <- sum_minus; apply sum_ext; intros; ring). rewrite E. ring. Qed.

(** The two solutions differ little in the energy of the first system *)
Lemma near_solutions : forall n A B F a b (s : nat -> bool) eps, symmetric n A -> symmetric n B -> psd n A -> 0 <= eps ->
  (forall v, (1 - eps) * energy n A v <= energy n B v /\ energy n B v <= (1 + eps) * energy n A v) ->
  (forall i, (i < n)%nat -> s i = true -> b i == a i) -> (forall i, (i < n)%nat -> s i = false -> mulv n A a i == F i) -> (forall i, (i < n)%nat -> s i = false -> mulv n B b i == F i) ->
  energy n A (fun i => b i - a i) <= eps * eps * energy n A b.
Proof.
  intros n A B F a b s eps SA SB PA EP NR Z AF BF. set (x := fun i => b i - a i).
  assert (X0 : forall i, (i < n)%nat -> s i = true -> x i == 0) by (intros i Hi E; unfold x; rewrite (Z i Hi E); ring).
  assert (W : energy n A x == dot n x (mulv n A b) - dot n x (mulv n B b)).
  { rewrite (balanced_work n B F b s x X0 BF). unfold energy. rewrite (dot_ext n x (mulv n A x) x (fun i => mulv n A b i - mulv n A a i)); [|intros i Hi; reflexivity|intros i Hi; apply mulv_minus].
    rewrite dot_minus_r, (balanced_work n A F a s x X0 AF). reflexivity. }
  set (w := dot n x (mulv n A b) - dot n x (mulv n B b)) in *.
  (* the difference of the systems, at x + eps b and at x - eps b *)
  pose proof (energy_line n A x b eps SA) as A1. pose proof (energy_line n A x b (- eps) SA) as A2. pose proof (energy_line n B x b eps SB) as B1. pose proof (energy_line n B x b (- eps) SB) as B2.
  destruct (NR (fun i => x i + eps * b i)) as [N1 _]. destruct (NR (fun i => x i + - eps * b i)) as [_ N2]. rewrite A1, B1 in N1. rewrite A2, B2 in N2.
  destruct (NR x) as [X1 X2]. destruct (NR b) as [Y1 Y2].
  destruct (Qlt_le_dec 0 eps) as [P|Q0].
  - (* 4 eps w <= 2 eps (E x + eps^2 E b) *)
    assert (G : eps * (4 * w) <= eps * (2 * (energy n A x + eps * eps * energy n A b))) by (unfold w; nra).
    assert (G' : 4 * w <= 2 * (energy n A x + eps * eps * energy n A b)).
    { apply (Qmult_le_l _ _ eps P). exact G. }
    rewrite <- W in G'. lra.
  - assert (E0 : eps == 0) by lra. 
    (* equal energies, equal systems *)
    pose proof (energy_line n A x b 1 SA) as A3. pose proof (energy_line n B x b 1 SB) as B3. destruct (NR (fun i => x i + 1 * b i)) as [N3 N4]. rewrite A3, B3 in N3, N4. rewrite E0 in *.
    pose proof (PA x). rewrite W. unfold w. lra.
Qed.

(** the same, by the energy of the first solution *)
Lemma near_solutions_first : forall n A B F a b (s : nat -> bool) eps, symmetric n A -> symmetric n B -> psd n A -> 0 <= eps -> eps < 1 ->
  (forall v, (1 - eps) * energy n A v <= energy n B v /\ energy n B v <= (1 + eps) * energy n A v) ->
  (forall i, (i < n)%nat -> s i = true -> b i == a i) -> (forall i, (i < n)%nat -> s i = false -> mulv n A a i == F i) -> (forall i, (i < n)%nat -> s i = false -> mulv n B b i == F i) ->
  (1 - eps) * (1 - eps) * energy n A (fun i => b i - a i) <= eps * eps * energy n A a.
Proof.
  intros n A B F a b s eps SA SB PA EP E1 NR Z AF BF. pose proof (near_solutions n A B F a b s eps SA SB PA EP NR Z AF BF) as NS.
  set (x := fun i => b i - a i) in *. pose proof (PA x) as PX.
  assert (EB : energy n A b == energy n A (fun i => a i + 1 * x i)) by (apply energy_ext; [intros; reflexivity|intros i Hi; unfold x; ring]). rewrite (energy_line n A a x 1 SA) in EB.
  pose proof (work_square n A a x SA PA) as CS. set (w := dot n a (mulv n A x)) in *. pose proof (PA a) as Pa. set (ea := energy n A a) in *. set (ex := energy n A x) in *. rewrite EB in NS.
  (* ex <= eps^2 (ea + 2 w + ex), w^2 <= ea ex *)
  destruct (Qlt_le_dec 0 eps) as [P|Q0].
  - (* 2 w <= t ea + ex / t with t = eps / (1 - eps) *)
    assert (SQ : 0 <= (energy n A (fun i => eps * a i + (-(1 - eps)) * x i))) by apply PA.
    rewrite (energy_line n A (fun i => eps * a i) x (-(1 - eps)) SA) in SQ. rewrite dot_scale_l in SQ. fold w ex in SQ.
    assert (EE : energy n A (fun i => eps * a i) == eps * eps * ea).
    { unfold energy. rewrite dot_scale_l. rewrite (dot_ext n a (mulv n A (fun i => eps * a i)) a (fun i => eps * mulv n A a i)); [|intros i Hi; reflexivity|apply mulv_scaled]. rewrite dot_scale_r. unfold ea, energy. ring. }
    rewrite EE in SQ.
    (* (1-eps) ex <= eps^2 ((1-eps) ea + 2 (1-eps) w + (1-eps) ex), 2 eps (1-eps) w <= eps^2 ea + (1-eps)^2 ex *)
    assert (K1 : (1 - eps) * ex <= (1 - eps) * (eps * eps * (ea + 2 * 1 * w + 1 * 1 * ex))) by (apply Qmult_le_l; [lra|exact NS]).
    assert (K2 : eps * (2 * eps * (1 - eps) * w) <= eps * (eps * eps * ea + (1 - eps) * (1 - eps) * ex)) by (apply Qmult_le_l; [exact P|]; lra).
    nra.
  - assert (E0 : eps == 0) by lra. rewrite E0 in *. lra.
Qed.

(** ** It takes at most [c] times the work to deform the first pile *)
Lemma upto_one : forall (a a' : option curve) c k k' h h', slope_upto c a a' k k' -> (a <> None -> h == k) -> (a' <> None -> h' == k') -> match a with None => h = 0 | Some _ => True end -> 0 <= h' -> 0 <= c -> h <= c * h'.
Proof.
  intros a a' c k k' h h' [N|[N L]] E E' Z P C; [rewrite N in Z; subst h; apply Qmult_le_0_compat; assumption|].
  destruct a as [x|]; [|subst h; apply Qmult_le_0_compat; assumption].
  rewrite (E ltac:(discriminate)), (E' N). exact L.
Qed.

Lemma py_scaled : forall c L kt kb v, energy 6 (elem_py L (c * kt) (c * kb)) v == c * energy 6 (elem_py L kt kb) v.
Proof. intros. rewrite <- energy_mscale. apply energy_ext; [|intros; reflexivity]. intros i j _ _. unfold elem_py. ring. Qed.
Lemma tz_scaled : forall c L kt kb v, energy 6 (elem_tz L (c * kt) (c * kb)) v == c * energy 6 (elem_tz L kt kb) v.
Proof. intros. rewrite <- energy_mscale. apply energy_ext; [|intros; reflexivity]. intros i j _ _. unfold elem_tz. ring. Qed.
Lemma mt_scaled : forall c C kt kb v, energy 6 (mt_matrix C (c * kt) (c * kb)) v == c * energy 6 (mt_matrix C kt kb) v.
Proof. intros. rewrite <- energy_mscale. apply energy_ext; [|intros; reflexivity]. intros i j _ _. destruct C as [[[A' B'] C'] D']. unfold mt_matrix. ring. Qed.

Lemma upto_energy : forall c M M' z z' s s' u u' kd kd' K K' v, 0 <= c -> sound_model M z -> sound_model M' z' -> upto c M M' s s' -> elastic M s u -> elastic M' s' u' ->
  build M u kd = Ok K -> build M' u' kd' = Ok K' -> energy (size M) K v <= c * energy (size M) K' v.
Proof.
  intros c M M' z z' s s' u u' kd kd' K K' v C0 SM SM' (EN & ELn & ST & GP & GZ & GM & GC & GH & GB & GQ) EL EL' HB HB'.
  destruct (system_parts M u kd K HB) as (kp & kz & km & h & m & q & V & W). destruct (system_parts M' u' kd' K' HB') as (kp' & kz' & km' & h' & m' & q' & V' & W').
  assert (ES : size M' = size M) by (unfold size; rewrite EN; reflexivity).
  destruct (values_nonneg M' z' u' kd' SM' _ _ _ _ _ _ V') as (H1 & H2 & H3 & H4).
  destruct (elastic_values _ _ _ _ _ _ _ _ _ _ EL V) as (XP & XZ & XM & XH & XB & XQ). destruct (elastic_values _ _ _ _ _ _ _ _ _ _ EL' V') as (XP' & XZ' & XM' & XH' & XB' & XQ').
  rewrite <- ES at 2. rewrite W, W'. rewrite EN in *. destruct V as (VP & VZ & VM & VH & VB & VQ).
  assert (LH : h <= c * h') by (apply (upto_one (w_hb M) (w_hb M') _ _ _ _ _ GH XH XH'); [destruct (w_hb M); [exact Logic.I|exact VH]|exact H1|exact C0]).
  assert (LM : m <= c * m') by (apply (upto_one (w_mb M) (w_mb M') _ _ _ _ _ GB XB XB'); [destruct (w_mb M); [exact Logic.I|exact VB]|exact H2|exact C0]).
  assert (LQ : q <= c * q') by (apply (upto_one (w_qz M) (w_qz M') _ _ _ _ _ GQ XQ XQ'); [destruct (w_qz M); [exact Logic.I|exact VQ]|exact H3|exact C0]).
  pose proof (square_le _ _ (v (3 * w_n M + 1)%nat) LH). pose proof (square_le _ _ (v (3 * w_n M + 2)%nat) LM). pose proof (square_le _ _ (v (3 * w_n M)%nat) LQ).
  assert (SE0 : energy (3 * w_n M + 3) (jit_build (w_n M) (w_mech M)) v <= c * energy (3 * w_n M + 3) (jit_build (w_n M) (w_mech M')) v).
  { rewrite !build_energy, <- sum_scale. apply sum_le. intros e He. apply (ST e _ He). }
  assert (SE : sum (w_n M) (soil_work M kp kz km v v) <= c * sum (w_n M) (soil_work M' kp' kz' km' v v)).
  { rewrite <- sum_scale. apply sum_le. intros e He. destruct (sm_len M z SM e He) as [_ LP]. destruct (H4 e v He) as (_ & NP & NZ). unfold soil_work. rewrite (ELn e He), !Qmult_plus_distr_r. apply Qplus_le_compat; [apply Qplus_le_compat|].
    - destruct (w_py M) as [py|] eqn:E.
      + destruct GP as [X|[N G]]; [discriminate|]. destruct (XP ltac:(discriminate) e He) as [A1 A2]. destruct (XP' N e He) as [B1 B2]. destruct (w_py M') as [py'|]; [|contradiction].
        refine (Qle_trans _ _ _ (py_stiffer _ _ _ (c * fst (kp' e)) (c * snd (kp' e)) _ _ _ _) _); [lra| | |]; [rewrite A1, B1|rewrite A2, B2|]; [apply G; auto; lia|apply G; auto; lia|].
        rewrite py_scaled. apply Qle_refl.
      + apply Qmult_le_0_compat; [exact C0|]. destruct (w_py M') as [py'|]; [|lra]. destruct NP as [A1 A2]; [discriminate|]. apply py_psd; auto; lra.
    - destruct (w_tz M) as [tz|] eqn:E.
      + destruct GZ as [X|[N G]]; [discriminate|]. destruct (XZ ltac:(discriminate) e He) as [A1 A2]. destruct (XZ' N e He) as [B1 B2]. destruct (w_tz M') as [tz'|]; [|contradiction].
        refine (Qle_trans _ _ _ (tz_stiffer _ _ _ (c * fst (kz' e)) (c * snd (kz' e)) _ _ _ _) _); [lra| | |]; [rewrite A1, B1|rewrite A2, B2|]; [apply G; auto; lia|apply G; auto; lia|].
        rewrite tz_scaled. apply Qle_refl.
      + apply Qmult_le_0_compat; [exact C0|]. destruct (w_tz M') as [tz'|]; [|lra]. destruct NZ as [A1 A2]; [discriminate|]. apply tz_psd; auto; lra.
    - destruct (w_mt M) as [mt|] eqn:E.
      + destruct GM as [X|[N G]]; [discriminate|]. destruct GC as [X|C]; [discriminate|]. destruct (XM ltac:(discriminate) e He) as [A1 A2]. destruct (XM' N e He) as [B1 B2].
        destruct (w_mt M') as [mt'|]; [|contradiction]. rewrite (C e He).
        refine (Qle_trans _ _ _ (mt_stiffer _ _ _ (c * fst (km' e)) (c * snd (km' e)) _ _ _ _) _); [exact (sm_mtc M z SM mt E e He)| | |]; [rewrite A1, B1|rewrite A2, B2|]; [apply G; auto; lia|apply G; auto; lia|].
        rewrite mt_scaled. apply Qle_refl.
      + apply Qmult_le_0_compat; [exact C0|]. destruct (w_mt M') as [mt'|] eqn:E'; [|lra]. destruct (XM' ltac:(discriminate) e He) as [B1 B2]. destruct V' as (_ & _ & VM' & _).
        destruct (sm_pair M' z' SM') as [X|[py EP]]; [congruence|].
        assert (He' : (e < w_n M')%nat) by (rewrite EN; exact He).
        destruct (VM' py mt' EP E' e He') as [[p0 A0] [p1 C1]].
        apply (sm_mtc M' z' SM' mt' E' e He'); eapply mt_nonneg; eauto; apply first_rotation; apply (sm_mt M' z' SM' py mt' EP E' e); auto. }
  unfold size in *. lra.
Qed.

Lemma near_energy : forall eps M M' z z' s s' u u' kd kd' K K' v, 0 <= eps -> sound_model M z -> sound_model M' z' -> near eps M M' s s' -> elastic M s u -> elastic M' s' u' ->
  build M u kd = Ok K -> build M' u' kd' = Ok K' -> (1 - eps) * energy (size M) K v <= energy (size M) K' v /\ energy (size M) K' v <= (1 + eps) * energy (size M) K v.
Proof.
  intros eps M M' z z' s s' u u' kd kd' K K' v E0 SM SM' [N1 N2] EL EL' HB HB'.
  assert (ES : size M' = size M) by (unfold size; destruct N1 as [-> _]; reflexivity).
  pose proof (upto_energy (1 + eps) M M' z z' s s' u u' kd kd' K K' v ltac:(lra) SM SM' N1 EL EL' HB HB') as A.
  pose proof (upto_energy (1 + eps) M' M z' z s' s u' u kd' kd K' K v ltac:(lra) SM' SM N2 EL' EL HB' HB) as B. rewrite ES in B. split; [|exact B].
  pose proof (system_psd M' z' u' kd' K' SM' HB' v) as P. rewrite ES in P. pose proof (system_psd M z u kd K SM HB v) as P0.
  set (a := energy (size M) K v) in *. set (b := energy (size M) K' v) in *. destruct (Qlt_le_dec eps 1) as [L|L]; [|nra].
  assert (G : (1 - eps) * a <= (1 - eps) * ((1 + eps) * b)) by (apply Qmult_le_l; lra). nra.
Qed.

(** ** Slopes of curves whose points are known up to a relative error *)
Definition error_of (d : Q) : Q := 2 * d / (1 - d).

Lemma close_sym : forall d x y, close d x y -> close d y x.
Proof. intros d x y [A B]. assert (E : Qabs (x - y) == Qabs (y - x)) by (rewrite <- (Qabs_opp (y - x)); apply Qabs_wd; ring). split; rewrite E; assumption. Qed.
Lemma close_up : forall d x y, close d x y -> Qabs x <= (1 + d) * Qabs y.
Proof. intros d x y [A B]. pose proof (Qabs_triangle y (x - y)) as T. assert (E : y + (x - y) == x) by ring. rewrite E in T. assert (E' : Qabs (x - y) == Qabs (y - x)) by (rewrite <- (Qabs_opp (y - x)); apply Qabs_wd; ring). lra. Qed.
Lemma close_down : forall d x y, close d x y -> (1 - d) * Qabs x <= Qabs y.
Proof. intros d x y [A B]. pose proof (Qabs_triangle y (x - y)) as T. assert (E : y + (x - y) == x) by ring. rewrite E in T. assert (E' : Qabs (x - y) == Qabs (y - x)) by (rewrite <- (Qabs_opp (y - x)); apply Qabs_wd; ring). lra. Qed.

Lemma abs_div : forall x y, Qabs (x / y) == Qabs x / Qabs y.
Proof.
  intros x y. destruct (Qeq_dec y 0) as [Z|Z].
  - assert (E : x / y == 0) by (unfold Qdiv; rewrite Z; change (/ 0) with 0; ring). rewrite E. assert (E' : Qabs y == 0) by (rewrite Z; reflexivity). unfold Qdiv. rewrite E'. change (/ 0) with 0. change (Qabs 0) with 0. ring.
  - unfold Qdiv. rewrite Qabs_Qmult. apply Qmult_comp; [reflexivity|]. assert (P : 0 < Qabs y) by (pose proof (Qabs_nonneg y); destruct (Qle_lt_or_eq _ _ H) as [L|E]; [exact L|]; exfalso; apply Z; destruct (Qlt_le_dec y 0); [rewrite Qabs_neg in E by lra; lra|rewrite Qabs_pos in E by lra; lra]).
    apply (Qmult_inj_r _ _ (Qabs y)); [lra|]. rewrite <- Qabs_Qmult. assert (E1 : / y * y == 1) by (field; exact Z). rewrite E1. change (Qabs 1) with 1. field. lra.
Qed.

(** slopes of corresponding points *)
Lemma slope_close_abs : forall d x y x' y', 0 <= d -> d < 1 -> close d x x' -> close d y y' -> Qabs (y / x) <= (1 + d) / (1 - d) * Qabs (y' / x').
Proof.
  intros d x y x' y' D0 D1 CX CY. rewrite !abs_div.
  pose proof (close_up _ _ _ CY) as U. pose proof (close_down _ _ _ (close_sym _ _ _ CX)) as L. pose proof (Qabs_nonneg x) as NX. pose proof (Qabs_nonneg x') as NX'. pose proof (Qabs_nonneg y') as NY'.
  set (a := Qabs x) in *. set (a' := Qabs x') in *. set (b := Qabs y) in *. set (b' := Qabs y') in *.
  assert (C0 : 0 <= (1 + d) / (1 - d)) by (apply Qle_shift_div_l; lra).
  assert (Q0 : 0 <= b' / a') by (unfold Qdiv; apply Qmult_le_0_compat; [exact NY'|apply Qinv_le_0_compat; exact NX']).
  destruct (Qeq_dec a 0) as [Z|Z].
  - unfold Qdiv at 1. rewrite Z. change (/ 0) with 0. rewrite Qmult_0_r. apply Qmult_le_0_compat; assumption.
  - assert (PA : 0 < a) by (destruct (Qle_lt_or_eq _ _ NX) as [X|X]; [exact X|exfalso; apply Z; rewrite <- X; reflexivity]).
    pose proof (close_up _ _ _ CX) as UX. fold a a' in UX. assert (PA' : 0 < a') by (destruct (Qlt_le_dec 0 a') as [X|X]; [exact X|exfalso; assert (a' == 0) by lra; rewrite H in UX; lra]).
    apply Qle_shift_div_r; [exact PA|].
    assert (E : (1 + d) / (1 - d) * (b' / a') * a == (1 + d) * b' * a / ((1 - d) * a')) by (field; split; lra). rewrite E.
    assert (PD : 0 < (1 - d) * a') by (apply Qmult_lt_0_compat; lra).
    apply Qle_shift_div_l; [exact PD|].
    assert (S1 : b * ((1 - d) * a') <= b * a) by (rewrite !(Qmult_comm b); apply Qmult_le_compat_r; [exact L|apply Qabs_nonneg]).
    assert (S2 : b * a <= (1 + d) * b' * a) by (apply Qmult_le_compat_r; [exact U|exact NX]). lra.
Qed.
Lemma slope_close : forall d x y x' y', 0 <= d -> d < 1 -> close d x x' -> close d y y' -> 0 <= y / x -> 0 <= y' / x' -> y / x <= (1 + d) / (1 - d) * (y' / x').
Proof. intros d x y x' y' D0 D1 CX CY P P'. rewrite <- (Qabs_pos _ P), <- (Qabs_pos _ P'). apply slope_close_abs; assumption. Qed.

Lemma close_at : forall d c c' i, close_points d c c' -> close d (fst (point c i)) (fst (point c' i)) /\ close d (snd (point c i)) (snd (point c' i)).
Proof.
  intros d c c' i [L H]. destruct (Nat.lt_ge_cases i (length c)) as [X|X]; [exact (H i X)|].
  unfold point. rewrite !nth_overflow by lia. cbn [fst snd]. assert (Z : Qabs (0 - 0) == 0) by reflexivity. assert (Z' : Qabs 0 == 0) by reflexivity.
  split; (split; rewrite Z, Z'; lra).
Qed.
Lemma close_points_sym : forall d c c', close_points d c c' -> close_points d c' c.
Proof. intros d c c' [L H]. split; [lia|]. intros i Hi. destruct (H i ltac:(lia)) as [A B]. split; apply close_sym; assumption. Qed.

Lemma lateral_slope : forall c, lateral_curve c \/ absent c -> 0 <= slope1 c.
Proof. intros c H. destruct (lateral_small c 0 H) as (t & T & X). destruct (X t T ltac:(lra)) as [(_ & _ & _ & P & _)|[_ Z]]; [exact P|lra]. Qed.
Lemma tip_slope : forall c, lateral_curve c \/ idle c -> 0 <= slope1 c.
Proof. intros c H. destruct (tip_small c 0 H) as (t & T & X). destruct (X t T ltac:(lra)) as [[(_ & _ & _ & P & _) _]|[_ Z]]; [exact P|lra]. Qed.
Lemma axial_slope : forall c, middle_curve c \/ absent c -> 0 <= slope_mid c.
Proof. intros c H. destruct (axial_small c 0 H ltac:(left; lra)) as (t & T & X). destruct (X t T ltac:(lra)) as [(m & _ & _ & _ & _ & P & _)|[_ Z]]; [exact P|lra]. Qed.
Lemma tip_axial_slope : forall c, middle_curve c \/ idle c -> 0 <= slope_mid c.
Proof. intros c H. destruct (tip_axial_small c 0 H ltac:(left; lra)) as (t & T & X). destruct (X t T ltac:(lra)) as [(m & _ & _ & _ & _ & P & _)|[_ Z]]; [exact P|lra]. Qed.

Section Close.
Variable d : Q.
Hypothesis D0 : 0 <= d.
Hypothesis D1 : d < 1.
Notation c0 := ((1 + d) / (1 - d)).

Lemma slope1_close : forall c c', close_points d c c' -> 0 <= slope1 c -> 0 <= slope1 c' -> slope1 c <= c0 * slope1 c'.
Proof using D0 D1. intros c c' H P P'. destruct (close_at d c c' 1 H) as [A B]. apply slope_close; assumption. Qed.
Lemma slope_mid_close : forall c c', close_points d c c' -> 0 <= slope_mid c -> 0 <= slope_mid c' -> slope_mid c <= c0 * slope_mid c'.
Proof using D0 D1. intros c c' H P P'. unfold slope_mid in *. pose proof H as [L _]. rewrite L in *. destruct (close_at d c c' (S (zero_index (length c))) H) as [A B]. apply slope_close; assumption. Qed.

Lemma factor_one : 1 <= c0.
Proof using D0 D1. apply Qle_shift_div_l; lra. Qed.

Lemma close_upto : forall M M' z, sound_model M z -> regular M -> regular M' -> close_soil d M M' -> upto c0 M M' (first_slopes M) (first_slopes M').
Proof using D0 D1.
  intros M M' z SM (P & T & R & H & B & A) (P' & T' & R' & H' & B' & A') (EN & EL & EM & EC & CP & CZ & CM & CH & CB & CQ).
  split; [exact EN|]. split; [intros; rewrite EL; reflexivity|]. split.
  { intros e u He. rewrite EM. destruct (sm_mech M z SM e He) as (_ & PS & _). pose proof (PS u) as X. pose proof factor_one as F. pose proof (Qmult_le_compat_r _ _ _ F X). lra. }
  unfold first_slopes. cbn [k_py k_tz k_mt k_hb k_mb k_qz]. rewrite EN in *.
  split; [|split; [|split; [|split; [|split; [|split]]]]].
  - destruct (w_py M) as [py|], (w_py M') as [py'|]; cbn [close_option] in CP; try contradiction; [right|left; reflexivity]. split; [discriminate|].
    intros e j He Hj. apply slope1_close; [apply CP; assumption|apply lateral_slope, (P py eq_refl); assumption|apply lateral_slope, (P' py' eq_refl); assumption].
  - destruct (w_tz M) as [tz|], (w_tz M') as [tz'|]; cbn [close_option] in CZ; try contradiction; [right|left; reflexivity]. split; [discriminate|].
    intros e j He Hj. apply slope_mid_close; [apply CZ; assumption|apply axial_slope, (T tz eq_refl); assumption|apply axial_slope, (T' tz' eq_refl); assumption].
  - destruct (w_mt M) as [mt|], (w_mt M') as [mt'|]; cbn [close_option] in CM; try contradiction; [right|left; reflexivity]. split; [discriminate|].
    intros e j He Hj. destruct (R mt eq_refl) as (py & _ & FR). destruct (R' mt' eq_refl) as (py' & _ & FR'). destruct (FR e j He Hj) as (_ & _ & _ & F). destruct (FR' e j He Hj) as (_ & _ & _ & F').
    apply slope1_close; [apply CM; assumption|apply lateral_slope; exact F|apply lateral_slope; exact F'].
  - right. intros. rewrite EC. reflexivity.
  - destruct (w_hb M) as [c|], (w_hb M') as [c'|]; cbn [close_option] in CH; try contradiction; [right|left; reflexivity]. split; [discriminate|].
    apply slope1_close; [exact CH|apply tip_slope, (H c eq_refl)|apply tip_slope, (H' c' eq_refl)].
  - destruct (w_mb M) as [c|], (w_mb M') as [c'|]; cbn [close_option] in CB; try contradiction; [right|left; reflexivity]. split; [discriminate|].
    apply slope1_close; [exact CB|apply tip_slope, (B c eq_refl)|apply tip_slope, (B' c' eq_refl)].
  - destruct (w_qz M) as [c|], (w_qz M') as [c'|]; cbn [close_option] in CQ; try contradiction; [right|left; reflexivity]. split; [discriminate|].
    apply slope_mid_close; [exact CQ|apply tip_axial_slope, (A c eq_refl)|apply tip_axial_slope, (A' c' eq_refl)].
Qed.
End Close.

Lemma close_soil_sym : forall d M M', close_soil d M M' -> close_soil d M' M.
Proof.
  intros d M M' (EN & EL & EM & EC & CP & CZ & CM & CH & CB & CQ). unfold close_soil. rewrite EN.
  split; [reflexivity|]. do 3 (split; [symmetry; assumption|]).
  split; [destruct (w_py M), (w_py M'); cbn [close_option] in *; try contradiction; auto; intros; apply close_points_sym; auto|].
  split; [destruct (w_tz M), (w_tz M'); cbn [close_option] in *; try contradiction; auto; intros; apply close_points_sym; auto|].
  split; [destruct (w_mt M), (w_mt M'); cbn [close_option] in *; try contradiction; auto; intros; apply close_points_sym; auto|].
  split; [destruct (w_hb M), (w_hb M'); cbn [close_option] in *; try contradiction; auto; apply close_points_sym; auto|].
  split; [destruct (w_mb M), (w_mb M'); cbn [close_option] in *; try contradiction; auto; apply close_points_sym; auto|].
  destruct (w_qz M), (w_qz M'); cbn [close_option] in *; try contradiction; auto; apply close_points_sym; auto.
Qed.

Lemma close_near : forall d M M' z z', 0 <= d -> d < 1 -> sound_model M z -> sound_model M' z' -> regular M -> regular M' -> close_soil d M M' ->
  near (error_of d) M M' (first_slopes M) (first_slopes M').
Proof.
  intros d M M' z z' D0 D1 SM SM' RG RG' C.
  assert (G : forall N N' s s', upto ((1 + d) / (1 - d)) N N' s s' -> upto (1 + error_of d) N N' s s').
  { assert (E : (1 + d) / (1 - d) == 1 + error_of d) by (unfold error_of; field; lra).
    intros N N' s s' (A1 & A2 & A3 & A4 & A5 & A6 & A7 & A8 & A9 & A10).
    split; [exact A1|]. split; [exact A2|]. split; [intros e u He; rewrite <- E; apply A3; exact He|].
    split; [destruct A4 as [X|[X Y]]; [left; exact X|right; split; [exact X|intros; rewrite <- E; apply Y; assumption]]|].
    split; [destruct A5 as [X|[X Y]]; [left; exact X|right; split; [exact X|intros; rewrite <- E; apply Y; assumption]]|].
    split; [destruct A6 as [X|[X Y]]; [left; exact X|right; split; [exact X|intros; rewrite <- E; apply Y; assumption]]|]. split; [exact A7|].
    split; [destruct A8 as [X|[X Y]]; [left; exact X|right; split; [exact X|rewrite <- E; exact Y]]|].
    split; [destruct A9 as [X|[X Y]]; [left; exact X|right; split; [exact X|rewrite <- E; exact Y]]|].
    destruct A10 as [X|[X Y]]; [left; exact X|right; split; [exact X|rewrite <- E; exact Y]]. }
  split; apply G; [apply (close_upto d D0 D1 M M' z SM RG RG' C)|apply (close_upto d D0 D1 M' M z' SM' RG' RG (close_soil_sym _ _ _ C))].
Qed.
