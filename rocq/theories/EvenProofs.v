(** Shaft springs that start with the same slope upwards and downwards *)
From Coq Require Import List Bool Arith ZArith QArith Reals Qreals Lia Lqa Lra.
From Verif Require Import Base PileModel PisaModel StressModel SpringModel CreateModel CreateProofs WholeModel AxialModel AxialSpec AxialProofs AxialProps CapacityModel CapacitySpec CapacityProofs FullModel FullSpec FullProofs SiteProofs AnalysisProofs.
Import ListNotations.
Local Open Scope Q_scope.

(** Storage that treats both signs alike, as every floating-point format does *)
Definition odd_storage (rnd : R -> Q) : Prop := forall x, rnd (- x)%R == - rnd x.
(** The friction in tension, as the code computes it from the outer perimeter alone (see C67), is that in compression. *)
Definition even_shaft (m : axial_soil) : Prop :=
  let '(p, t) := match m with Clay c => (ca_plug c, ca_tension c) | Sand s => (sa_plug s, sa_tension s) end in
  match p with PlugNone | PlugBoth => t = 1 | PlugTension => t = 2 | PlugCompression => t = / 2 end%R.

Section Shaft.
Local Open Scope R_scope.
Lemma even_factor : forall p t co total tens, match p with PlugNone | PlugBoth => t = 1 | PlugTension => t = 2 | PlugCompression => t = / 2 end -> 0 < co -> plug_factors p t co co = Ok (total, tens) -> tens = 1.
Proof.
  intros p t co total tens H C E. destruct p; cbn [plug_factors] in E; unfold PisaModel.nonzero in E; try (destruct (Req_EM_T _ 0); [discriminate E|]); subst t;
    match type of E with Ok (?a, ?b) = Ok (?c, ?d) => assert (X : b = d) by congruence end; rewrite <- X; try reflexivity; field; lra.
Qed.
Lemma tz_even : forall d m a co z t, fair d -> even_shaft m -> a_perim a = Some co -> a_perim_in a = Some co -> (0 < co)%Q -> tz_curve d m a = Ok (Some (z, t)) ->
  nth 6 z 0 = - nth 8 z 0 /\ nth 6 t 0 = - nth 8 t 0.
Proof.
  intros d m a co z t FD EV EC EI C0. unfold tz_curve. rewrite EC, EI. destruct (a_sig a) as [sig|]; [|discriminate]. destruct (a_D a) as [D|]; [|discriminate].
  destruct (FD m a) as [FU FA]. destruct (d m a) as [u idx]. cbn [fst snd] in FU, FA. apply Q2R_pos in C0.
  destruct m as [c|s]; cbn [even_shaft] in EV.
  - unfold clay_tz. destruct (at_depth _ _ _ _) as [Su|]; [|discriminate]. cbn [bind]. destruct (plug_factors (ca_plug c) (ca_tension c) (Q2R co) (Q2R co)) as [[total tens]|] eqn:PF; [|discriminate]. cbn [bind].
    pose proof (even_factor _ _ _ _ _ EV C0 PF) as TE. subst tens. unfold tz_api_clay. destruct (ca_zm c) as [zm|]; [|discriminate]. destruct (ca_tm c) as [tm|]; [|discriminate]. cbn [times bind some_values].
    intros E. injection E as <- <-. destruct (clay_centred u idx (ca_residual c) 1 FU FA) as (_ & Z8 & Z6). assert (OP : nth 6 (clay_backbone_z u 15) 0 = - nth 8 (clay_backbone_z u 15) 0) by (rewrite Z8, Z6; lra). rewrite !nth_scaled, OP. split; [ring|].
    rewrite (clay_t_eq u (ca_residual c) 1 15 idx FU FA). rewrite !app_nth1 by (cbn; lia). cbn. ring.
  - unfold sand_tz. destruct (at_depth _ _ _ _) as [Su|]; [|discriminate]. cbn [bind]. destruct (plug_factors (sa_plug s) (sa_tension s) (Q2R co) (Q2R co)) as [[total tens]|] eqn:PF; [|discriminate]. cbn [bind].
    pose proof (even_factor _ _ _ _ _ EV C0 PF) as TE. subst tens. unfold tz_api_sand. destruct (sa_zm s) as [zm|]; [|discriminate]. destruct (sa_tm s) as [tm|]; [|discriminate]. cbn [times bind some_values].
    intros E. injection E as <- <-. destruct (sand_centred u idx 1 FU FA) as (_ & Z8 & Z6). assert (OP : nth 6 (sand_backbone_z u 15) 0 = - nth 8 (sand_backbone_z u 15) 0) by (rewrite Z8, Z6; lra). rewrite !nth_scaled, OP. split; [ring|].
    rewrite (sand_t_eq u 1 15 idx FU FA). rewrite !app_nth1 by (cbn; lia). cbn. ring.
Qed.
End Shaft.

Lemma site_even : forall rnd ch o sections gr wt ys x c p t b m g i j, odd_storage rnd -> fair (c_tz ch) -> sound_site o sections gr wt ys x c p t b m ->
  (forall y ax, In y ys -> y_ax y = Some ax -> even_shaft ax) -> own_springs rnd ch o sections gr wt b ys m g i j -> snd (xy (g_tz g i j) 6) * fst (xy (g_tz g i j) 8) == snd (xy (g_tz g i j) 8) * fst (xy (g_tz g i j) 6).
Proof.
  intros rnd ch o sections gr wt ys x c p t b m g i j OD FT SS EV OW.
  assert (NO : forall l : list (Q * Q), no_spring l -> snd (xy l 6) * fst (xy l 8) == snd (xy l 8) * fst (xy l 6)).
  { intros l [L Z]. assert (X : forall k, (k < 15)%nat -> xy l k = (0, 0)) by (intros k Hk; apply Z, nth_In; rewrite L; exact Hk). rewrite !X by lia. reflexivity. }
  destruct OW as [(_ & _ & _ & H)|(_ & y & s & IY & NB & _ & _ & H)]; [exact (NO _ H)|]. unfold given in H. destruct (y_ax y) as [ax|] eqn:EA; [|exact (NO _ H)].
  destruct (on_tz o && true)%bool; [|exact (NO _ H)]. destruct H as (a & (_ & _ & _ & _ & _ & EO & EI) & z & tt' & E & _ & PT).
  destruct (tz_even (c_tz ch) ax a (s_outer s) z tt' FT (EV y ax (proj1 (proj2 (IY y) eq_refl)) EA) EO EI (proj1 (si_outer _ _ _ _ _ _ _ _ _ _ _ SS s (proj1 NB))) E) as [Z T].
  destruct (PT 6%nat ltac:(lia)) as [A1 A2]. destruct (PT 8%nat ltac:(lia)) as [B1 B2]. rewrite A1, A2, B1, B2, Z, T, (OD (nth 8 z 0%R)), (OD (nth 8 tt' 0%R)). ring.
Qed.
