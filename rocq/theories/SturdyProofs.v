(** Piles in soil that is no less stiff. *)
From Coq Require Import List Bool Arith ZArith QArith Qabs Lia Lqa Setoid.
From Verif Require Import Base LinAlg PileModel BeamModel BeamSpec BeamProofs SolveModel SolveSpec SolveProofs ForceProofs SpringModel SpringSpec SpringProofs SoilProofs SpringProper WinklerModel EquilSpec EquilProofs ElasticSpec ElasticProofs StiffSpec StiffProofs WorkSpec WorkProofs SturdySpec.
Import ListNotations.
Local Open Scope Q_scope.

(** ** Two systems under the same loads, the second with more supports *)
Lemma work_gap_supports : forall n A B F a b (s s' : nat -> bool), symmetric n A -> (forall i, (i < n)%nat -> s i = true -> s' i = true) ->
  (forall i, (i < n)%nat -> s i = true -> a i == 0) -> (forall i, (i < n)%nat -> s i = false -> mulv n A a i == F i) ->
  (forall i, (i < n)%nat -> s' i = true -> b i == 0) -> (forall i, (i < n)%nat -> s' i = false -> mulv n B b i == F i) ->
  dot n F a - dot n F b == energy n A (fun i => b i - a i) + (energy n B b - energy n A b).
Proof.
  intros n A B F a b s s' SY MS A0 AF B0 BF.
  assert (E : energy n A b == energy n A (fun i => a i + (b i - a i))) by (apply energy_ext; intros; [reflexivity|ring]).
  rewrite (energy_plus n A a (fun i => b i - a i) SY) in E.
  rewrite (balanced_work n A F a s (fun i => b i - a i)) in E.
  2: { intros i Hi Z. rewrite (A0 i Hi Z), (B0 i Hi (MS i Hi Z)). ring. }
  2: { exact AF. }
  rewrite dot_minus_r in E.
  assert (EA : energy n A a == dot n F a) by (apply (balanced_work n A F a s a); assumption).
  assert (EB : energy n B b == dot n F b) by (apply (balanced_work n B F b s' b); assumption).
  rewrite EA in E. lra.
Qed.

(** ** The values of springs in their elastic range *)
Lemma value_is : forall (r : res Q) x k, (exists y, r = Ok y /\ y == k) -> r = Ok x -> x == k.
Proof. intros r x k (y & E & Ey) H. assert (X : x = y) by congruence. rewrite X. exact Ey. Qed.

Lemma elastic_values : forall M ks u kd kp kz km h m q, elastic M ks u -> spring_values M u kd kp kz km h m q ->
  (w_py M <> None -> forall e, (e < w_n M)%nat -> fst (kp e) == k_py ks e 0%nat /\ snd (kp e) == k_py ks e 1%nat) /\
  (w_tz M <> None -> forall e, (e < w_n M)%nat -> fst (kz e) == k_tz ks e 0%nat /\ snd (kz e) == k_tz ks e 1%nat) /\
  (w_mt M <> None -> forall e, (e < w_n M)%nat -> fst (km e) == k_mt ks e 0%nat /\ snd (km e) == k_mt ks e 1%nat) /\
  (w_hb M <> None -> h == k_hb ks) /\ (w_mb M <> None -> m == k_mb ks) /\ (w_qz M <> None -> q == k_qz ks).
Proof.
  intros M ks u kd kp kz km h m q EL (VP & VZ & VM & VH & VB & VQ). pose proof EL as (P & T & R' & H & B & A).
  split; [|split; [|split; [|split; [|split]]]].
  - intros NN e He. destruct (w_py M) as [py|] eqn:E; [|contradiction]. destruct (VP py eq_refl e He) as [V0 V1].
    split; [apply (value_is _ _ _ (py_at M ks u kd py e 0 EL E He ltac:(lia)) V0)|apply (value_is _ _ _ (py_at M ks u kd py e 1 EL E He ltac:(lia)) V1)].
  - intros NN e He. destruct (w_tz M) as [tz|] eqn:E; [|contradiction]. destruct (VZ tz eq_refl e He) as [V0 V1].
    rewrite spring_disp_node in V0, V1 by lia. rewrite Nat.add_0_r in V0, V1.
    split; [refine (value_is _ _ _ (tz_elastic _ _ _ _ (T tz eq_refl e 0%nat _ He ltac:(lia) (node_of _ e 0%nat He ltac:(lia)))) V0)
           |refine (value_is _ _ _ (tz_elastic _ _ _ _ (T tz eq_refl e 1%nat _ He ltac:(lia) (node_of _ e 1%nat He ltac:(lia)))) V1)].
  - intros NN e He. destruct (w_mt M) as [mt|] eqn:E; [|contradiction]. destruct (R' mt eq_refl) as (py & EP & RR). destruct (VM py mt EP eq_refl e He) as [[p V0] [p' V1]].
    rewrite spring_disp_node in V0, V1 by lia.
    split; [refine (value_is _ _ _ (mt_elastic _ _ _ _ p _ (RR e 0%nat _ He ltac:(lia) (node_of _ e 0%nat He ltac:(lia)))) V0)
           |refine (value_is _ _ _ (mt_elastic _ _ _ _ p' _ (RR e 1%nat _ He ltac:(lia) (node_of _ e 1%nat He ltac:(lia)))) V1)].
  - intros NN. destruct (w_hb M) as [c|]; [|contradiction]. exact (value_is _ _ _ (base_elastic _ _ _ _ (H c eq_refl)) VH).
  - intros NN. destruct (w_mb M) as [c|]; [|contradiction]. exact (value_is _ _ _ (base_elastic _ _ _ _ (B c eq_refl)) VB).
  - intros NN. destruct (w_qz M) as [c|]; [|contradiction]. exact (value_is _ _ _ (base_axial_elastic _ _ _ _ (A c eq_refl)) VQ).
Qed.

(** ** It takes more work to deform the sturdier pile *)
Lemma grown : forall (c c' : option curve) k k' h h', slope_grows c c' k k' -> (c <> None -> h == k) -> (c' <> None -> h' == k') -> match c with None => h = 0 | Some _ => True end -> 0 <= h' -> h <= h'.
Proof.
  intros c c' k k' h h' [N|[N L]] E E' Z P; [rewrite N in Z; subst h; exact P|]. destruct c as [x|]; [|subst h; exact P].
  rewrite (E ltac:(discriminate)), (E' N). exact L.
Qed.

Lemma sturdier_energy : forall M M' z z' s s' u u' kd kd' K K' v, sound_model M z -> sound_model M' z' -> sturdier M M' s s' -> elastic M s u -> elastic M' s' u' ->
  build M u kd = Ok K -> build M' u' kd' = Ok K' -> energy (size M) K v <= energy (size M) K' v.
Proof.
  intros M M' z z' s s' u u' kd kd' K K' v SM SM' (EN & ELn & ST & GP & GZ & GM & GC & GH & GB & GQ) EL EL' HB HB'.
  destruct (system_parts M u kd K HB) as (kp & kz & km & h & m & q & V & W). destruct (system_parts M' u' kd' K' HB') as (kp' & kz' & km' & h' & m' & q' & V' & W').
  assert (ES : size M' = size M) by (unfold size; rewrite EN; reflexivity).
  destruct (values_nonneg M' z' u' kd' SM' _ _ _ _ _ _ V') as (H1 & H2 & H3 & H4).
  destruct (elastic_values _ _ _ _ _ _ _ _ _ _ EL V) as (XP & XZ & XM & XH & XB & XQ). destruct (elastic_values _ _ _ _ _ _ _ _ _ _ EL' V') as (XP' & XZ' & XM' & XH' & XB' & XQ').
  rewrite <- ES at 2. rewrite W, W'. rewrite EN in *. destruct V as (VP & VZ & VM & VH & VB & VQ).
  assert (LH : h <= h') by (apply (grown (w_hb M) (w_hb M') _ _ _ _ GH XH XH'); [destruct (w_hb M); [exact Logic.I|exact VH]|exact H1]).
  assert (LM : m <= m') by (apply (grown (w_mb M) (w_mb M') _ _ _ _ GB XB XB'); [destruct (w_mb M); [exact Logic.I|exact VB]|exact H2]).
  assert (LQ : q <= q') by (apply (grown (w_qz M) (w_qz M') _ _ _ _ GQ XQ XQ'); [destruct (w_qz M); [exact Logic.I|exact VQ]|exact H3]).
  pose proof (square_le _ _ (v (3 * w_n M + 1)%nat) LH). pose proof (square_le _ _ (v (3 * w_n M + 2)%nat) LM). pose proof (square_le _ _ (v (3 * w_n M)%nat) LQ).
  pose proof (stiffer_energy (w_n M) _ _ v ST) as SE0.
  assert (SE : sum (w_n M) (soil_work M kp kz km v v) <= sum (w_n M) (soil_work M' kp' kz' km' v v)).
  { apply sum_le. intros e He. destruct (sm_len M z SM e He) as [_ LP]. destruct (H4 e v He) as (_ & NP & NZ). unfold soil_work. rewrite (ELn e He). apply Qplus_le_compat; [apply Qplus_le_compat|].
    - destruct (w_py M) as [py|] eqn:E.
      + destruct GP as [X|[N G]]; [discriminate|]. destruct (XP ltac:(discriminate) e He) as [A1 A2]. destruct (XP' N e He) as [B1 B2]. destruct (w_py M') as [py'|]; [|contradiction].
        apply py_stiffer; [lra| |]; [rewrite A1, B1|rewrite A2, B2]; apply G; auto; lia.
      + destruct (w_py M') as [py'|]; [|lra]. destruct NP as [A1 A2]; [discriminate|]. apply py_psd; auto; lra.
    - destruct (w_tz M) as [tz|] eqn:E.
      + destruct GZ as [X|[N G]]; [discriminate|]. destruct (XZ ltac:(discriminate) e He) as [A1 A2]. destruct (XZ' N e He) as [B1 B2]. destruct (w_tz M') as [tz'|]; [|contradiction].
        apply tz_stiffer; [lra| |]; [rewrite A1, B1|rewrite A2, B2]; apply G; auto; lia.
      + destruct (w_tz M') as [tz'|]; [|lra]. destruct NZ as [A1 A2]; [discriminate|]. apply tz_psd; auto; lra.
    - destruct (w_mt M) as [mt|] eqn:E.
      + destruct GM as [X|[N G]]; [discriminate|]. destruct GC as [X|C]; [discriminate|]. destruct (XM ltac:(discriminate) e He) as [A1 A2]. destruct (XM' N e He) as [B1 B2].
        destruct (w_mt M') as [mt'|]; [|contradiction]. rewrite (C e He).
        apply mt_stiffer; [exact (sm_mtc M z SM mt E e He)| |]; [rewrite A1, B1|rewrite A2, B2]; apply G; auto; lia.
      + destruct (w_mt M') as [mt'|] eqn:E'; [|lra]. destruct (XM' ltac:(discriminate) e He) as [B1 B2]. destruct V' as (_ & _ & VM' & _).
        destruct (sm_pair M' z' SM') as [X|[py EP]]; [congruence|].
        assert (He' : (e < w_n M')%nat) by (rewrite EN; exact He).
        destruct (VM' py mt' EP E' e He') as [[p0 A0] [p1 C0]].
        apply (sm_mtc M' z' SM' mt' E' e He'); eapply mt_nonneg; eauto; apply first_rotation; apply (sm_mt M' z' SM' py mt' EP E' e); auto. }
  unfold size in *. lra.
Qed.
