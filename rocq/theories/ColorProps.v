(** C131: the colours of layers. *)
From Coq Require Import List Bool Arith QArith String Ascii Lia.
From Verif Require Import Base PileModel ColorModel.
Import ListNotations.
Local Open Scope string_scope.

(** Hexadecimal colours: # and six digits *)
Definition hex_digit (a : ascii) : bool :=
  let n := nat_of_ascii a in ((48 <=? n) && (n <=? 57) || (65 <=? n) && (n <=? 70) || (97 <=? n) && (n <=? 102))%nat%bool.
Definition hex_color (s : string) : Prop :=
  exists a b c d e f, s = String "#" (String a (String b (String c (String d (String e (String f "")))))) /\ forallb hex_digit [a; b; c; d; e; f] = true.

(** A layer is accepted when its data are, with any colour of seven characters or none. *)
Theorem C131_accepted : forall css4 top bottom weight color i, (i < 12)%nat ->
  ((exists r, colored_layer css4 top bottom weight color i = Ok r) <-> (bottom < top)%Q /\ (10 < weight)%Q /\ (forall s, color = Some s -> String.length s = 7%nat)).
Proof.
  intros css4 top bottom weight color i Hi. unfold colored_layer, check_color, make_layer.
  assert (G : exists s, generate_color css4 (Some "earth") i = Ok s).
  { do 12 (destruct i as [|i]; [eexists; reflexivity|]). lia. }
  destruct G as (g & G). split.
  - intros (r & H). destruct color as [s|].
    + destruct (Nat.eqb_spec (String.length s) 7) as [L|L]; cbn [bind] in H; [|discriminate]. destruct (Qltb 10 weight) eqn:W; cbn [negb bind] in H; [|discriminate]. destruct (Qltb bottom top) eqn:T; cbn [negb bind] in H; [|discriminate].
      apply Qltb_true in W. apply Qltb_true in T. split; [exact T|]. split; [exact W|]. intros s' E. injection E as <-. exact L.
    + cbn [bind] in H. destruct (Qltb 10 weight) eqn:W; cbn [negb bind] in H; [|discriminate]. destruct (Qltb bottom top) eqn:T; cbn [negb bind] in H; [|discriminate].
      apply Qltb_true in W. apply Qltb_true in T. split; [exact T|]. split; [exact W|]. intros s' E. discriminate.
  - intros (T & W & L). apply Qltb_true in T. apply Qltb_true in W. destruct color as [s|].
    + rewrite (L s eq_refl). cbn [Nat.eqb bind]. rewrite W. cbn [negb]. rewrite T. cbn [negb bind]. eauto.
    + cbn [bind]. rewrite W. cbn [negb]. rewrite T. cbn [negb bind]. rewrite G. cbn [bind]. eauto.
Qed.
Print Assumptions C131_accepted.

(** The colour is the one given or, when none is given, a hexadecimal colour; everything else of the layer is as given, whatever was drawn. *)
Theorem C131_color : forall css4 top bottom weight color i l s, colored_layer css4 top bottom weight color i = Ok (l, s) ->
  l = mkLayer top bottom weight /\ String.length s = 7%nat /\ (forall g, color = Some g -> s = g) /\ (color = None -> hex_color s).
Proof.
  intros css4 top bottom weight color i l s H. unfold colored_layer, check_color, make_layer in H.
  assert (HL : forall r, (if negb (Qltb 10 weight) then Err ValueError else if negb (Qltb bottom top) then Err ValueError else Ok (mkLayer top bottom weight)) = Ok r -> r = mkLayer top bottom weight).
  { intros r E. destruct (negb (Qltb 10 weight)); [discriminate|]. destruct (negb (Qltb bottom top)); [discriminate|]. injection E as <-. reflexivity. }
  destruct color as [g|].
  - destruct (Nat.eqb_spec (String.length g) 7) as [L|L]; cbn [bind] in H; [|discriminate]. destruct (if negb (Qltb 10 weight) then _ else _) as [r|] eqn:E; cbn [bind] in H; [|discriminate]. injection H as <- <-.
    split; [exact (HL r eq_refl)|]. split; [exact L|]. split; [intros g' E'; injection E' as <-; reflexivity|discriminate].
  - cbn [bind] in H. destruct (if negb (Qltb 10 weight) then _ else _) as [r|] eqn:E; cbn [bind] in H; [|discriminate]. split; [|split; [|split; [discriminate|intros _]]].
    + destruct (generate_color css4 (Some "earth") i); cbn [bind] in H; [|discriminate]. injection H as <- _. exact (HL r eq_refl).
    + do 12 (destruct i as [|i]; [injection H as _ <-; reflexivity|]). destruct i; discriminate.
    + do 12 (destruct i as [|i]; [injection H as _ <-; do 6 eexists; split; [reflexivity|vm_compute; reflexivity]|]). destruct i; discriminate.
Qed.
Print Assumptions C131_color.

(** Every colour of the list can be drawn, by one index each. *)
Theorem C131_drawn : forall css4, NoDup earth /\ (forall s, In s earth <-> exists i, (i < 12)%nat /\ generate_color css4 (Some "earth") i = Ok s) /\
  (forall i j s, generate_color css4 (Some "earth") i = Ok s -> generate_color css4 (Some "earth") j = Ok s -> i = j).
Proof.
  intros css4. assert (ND : NoDup earth).
  { repeat constructor; cbn [In]; intuition discriminate. }
  assert (G : forall i s, generate_color css4 (Some "earth") i = Ok s <-> nth_error earth i = Some s).
  { intros i s. unfold generate_color, colors. destruct (string_dec "earth" "earth") as [_|N]; [|contradiction N; reflexivity]. cbn [bind]. destruct (nth_error earth i); split; intros E; try discriminate; injection E as <-; reflexivity. }
  split; [exact ND|]. split.
  - intros s. split.
    + intros I. apply In_nth_error in I. destruct I as (i & E). exists i. split; [|apply G; exact E]. change 12%nat with (List.length earth). apply nth_error_Some. congruence.
    + intros (i & _ & E). apply G in E. apply nth_error_In in E. exact E.
  - intros i j s E1 E2. apply G in E1. apply G in E2. apply (proj1 (NoDup_nth_error earth) ND); [|congruence]. apply nth_error_Some. congruence.
Qed.
Print Assumptions C131_drawn.

(** A profile of more than twelve layers without colours of their own has two layers of one colour, whatever is drawn. *)
Theorem C131_twice : forall css4 (ls : list (layer * string)), (12 < List.length ls)%nat ->
  Forall (fun y => exists t b w i, colored_layer css4 t b w None i = Ok y) ls -> ~ NoDup (map snd ls).
Proof.
  intros css4 ls L F ND. assert (I : incl (map snd ls) earth).
  { intros s I. apply in_map_iff in I. destruct I as ([l s'] & E & I). cbn [snd] in E. subst s'. rewrite Forall_forall in F. destruct (F _ I) as (t & b & w & i & H).
    unfold colored_layer, check_color in H. cbn [bind] in H. destruct (make_layer t b w); cbn [bind] in H; [|discriminate]. destruct (generate_color css4 (Some "earth") i) as [c|] eqn:E; cbn [bind] in H; [|discriminate]. injection H as _ <-.
    apply (proj1 (proj2 (C131_drawn css4))). exists i. split; [|exact E]. do 12 (destruct i as [|i]; [lia|]). destruct i; discriminate. }
  apply (NoDup_incl_length ND) in I. rewrite map_length in I. change (List.length earth) with 12%nat in I. lia.
Qed.
Print Assumptions C131_twice.

(** Kinds other than "earth" and none raise UnboundLocalError. *)
Theorem C131_other_kind : forall css4 k i, k <> "earth" -> generate_color css4 (Some k) i = Err UnboundLocalError.
Proof. intros css4 k i N. unfold generate_color, colors. destruct (string_dec k "earth"); [contradiction|reflexivity]. Qed.
Print Assumptions C131_other_kind.

(** Seven characters need not be a colour. *)
Theorem C131_given_refuted : exists s l, forall css4 i, colored_layer css4 0 (-10) 18 (Some s) i = Ok (l, s) /\ ~ hex_color s.
Proof. exists "unknown". eexists. intros css4 i. split; [reflexivity|]. intros (a & b & c & d & e & f & E & _). discriminate. Qed.
Print Assumptions C131_given_refuted.

Example C131_example : forall css4, colored_layer css4 0 (-10) 18 None 3 = Ok (mkLayer 0 (-10) 18, "#99A885") /\ colored_layer css4 0 (-10) 18 (Some "#000000") 3 = Ok (mkLayer 0 (-10) 18, "#000000") /\
  colored_layer css4 0 (-10) 18 (Some "red") 3 = Err ValueError /\
  exists ls, (12 < List.length ls)%nat /\ Forall (fun y => exists t b w i, colored_layer css4 t b w None i = Ok y) ls.
Proof.
  intros css4. split; [reflexivity|]. split; [reflexivity|]. split; [reflexivity|].
  exists (map (fun k => (mkLayer (- inject_Z (Z.of_nat k)) (- inject_Z (Z.of_nat (S k))) 18, "#B4A390")) (seq 0 20)). split; [rewrite map_length, seq_length; lia|].
  apply Forall_forall. intros y I. apply in_map_iff in I. destruct I as (k & <- & I). exists (- inject_Z (Z.of_nat k))%Q, (- inject_Z (Z.of_nat (S k)))%Q, 18%Q, 0%nat.
  unfold colored_layer, check_color, make_layer. cbn [bind]. change (negb (Qltb 10 18)) with false. cbv iota.
  assert (T : Qltb (- inject_Z (Z.of_nat (S k))) (- inject_Z (Z.of_nat k)) = true) by (apply Qltb_true; unfold Qlt, inject_Z, Qopp; cbn [Qnum Qden]; lia). rewrite T. reflexivity.
Qed.
