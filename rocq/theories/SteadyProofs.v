(** Moment springs of the clay models: the curves over the rotation are the same for every lateral resistance, and stay so when stored. *)
From Coq Require Import Reals List Bool Arith ZArith QArith Lia.
From Verif Require Import Base ConicModel ConicProofs PisaModel LateralModel MomentProofs StartProofs FullModel FullSpec.
Import ListNotations.

(** The models whose moment curves are computed without the lateral resistance, and those without moment curves *)
Definition steady (md : lateral_model) : Prop :=
  match md with
  | Dunkirk_sand _ _ _ | Custom_pisa_sand _ _ _ _ _ _ => False
  | API_sand _ _ _ _ extension _ _ => extension = false
  | _ => True
  end.

Lemma mapM_length : forall A B (f : A -> res B) l r, mapM f l = Ok r -> length r = length l.
Proof.
  intros A B f. induction l as [|a t IH]; intros r E; cbn [mapM] in E; [assert (r = []) by congruence; subst; reflexivity|].
  destruct (f a) as [v|]; [|discriminate]. cbn [bind] in E. destruct (mapM f t) as [w|] eqn:W; [|discriminate]. cbn [bind] in E.
  assert (r = v :: w) by congruence. subst r. cbn [length]. rewrite (IH w eq_refl). reflexivity.
Qed.
Lemma conic_length : forall x n k y m xs ys, conic x n k y m = Ok (xs, ys) -> length ys = m.
Proof.
  intros x n k y m xs ys E. unfold conic in E. destruct (Req_EM_T x 0); [discriminate|]. destruct (Nat.ltb m 5) eqn:L; [discriminate|]. apply Nat.ltb_ge in L.
  cbv zeta in E. destruct (mapM _ _) as [w|] eqn:W; [|discriminate]. cbn [bind] in E. assert (ys = w) by congruence. subst w. rewrite (mapM_length _ _ _ _ _ W).
  unfold conic_x. rewrite !app_length, map_length, linspace_length. cbn [length]. lia.
Qed.
Lemma scaled_length : forall x n k y m num g sc c, scaled (conic x n k y m) num g sc = Ok c -> length (snd c) = m.
Proof.
  intros x n k y m num g sc c E. unfold scaled in E. destruct (conic x n k y m) as [[xs ys]|] eqn:C; [|discriminate]. cbn [bind] in E. apply nonzero_ok in E.
  assert (EC : snd c = map (option_map (fun v => (v * sc)%R)) ys) by (injection E as <-; reflexivity). rewrite EC, map_length. exact (conic_length _ _ _ _ _ _ _ C).
Qed.
Lemma four_length : forall f q m (r : R -> R -> R -> R -> res LateralModel.curve) c, (forall x n k y c', r x n k y = Ok c' -> length (snd c') = m) -> with_four f q r = Ok c -> length (snd c) = m.
Proof.
  intros f q m r c H E. unfold with_four in E. destruct (custom_value (f_X f) q); [|discriminate]. cbn [bind] in E. destruct (custom_value (f_n f) q); [|discriminate]. cbn [bind] in E.
  destruct (custom_value (f_k f) q); [|discriminate]. cbn [bind] in E. destruct (custom_value (f_Y f) q); [|discriminate]. cbn [bind] in E. exact (H _ _ _ _ _ E).
Qed.

(** All rows are one row *)
Definition one_row (c : LateralModel.curves) (n : nat) : Prop := exists t s, c = (repeat t n, repeat s n).
Lemma mapM_const : forall A B (v : res B) (l : list A) r, mapM (fun _ => v) l = Ok r -> (exists b, v = Ok b /\ r = repeat b (length l)) \/ (l = [] /\ r = []).
Proof.
  intros A B v. induction l as [|a t IH]; intros r E; cbn [mapM] in E; [right; split; [reflexivity|congruence]|]. left. destruct v as [b|]; [|discriminate]. cbn [bind] in E.
  exists b. split; [reflexivity|]. destruct (mapM _ t) as [w|] eqn:W; [|discriminate]. cbn [bind] in E. assert (r = b :: w) by congruence. subst r. cbn [length repeat]. f_equal.
  destruct (IH w eq_refl) as [(b' & E' & ->)|[-> ->]]; [assert (b' = b) by congruence; subst; reflexivity|reflexivity].
Qed.
Lemma map_repeat' : forall A B (f : A -> B) a n, map f (repeat a n) = repeat (f a) n.
Proof. intros A B f a. induction n as [|n IH]; cbn; [reflexivity|rewrite IH; reflexivity]. Qed.
Lemma rows_const : forall n p v c, length p = n -> mt_rows n p (fun _ => v) = Ok c -> one_row c n.
Proof.
  intros n p v c L E. unfold mt_rows in E. rewrite <- L, firstn_all in E. destruct (mapM _ p) as [cs|] eqn:M; [|discriminate]. cbn [bind] in E. rewrite Nat.ltb_irrefl, Nat.sub_diag in E. cbn [repeat] in E. rewrite !app_nil_r in E.
  assert (EC : c = (map fst cs, map snd cs)) by congruence. subst c. destruct (mapM_const _ _ _ _ _ M) as [(b & _ & ->)|[-> ->]].
  - exists (fst b), (snd b). rewrite !map_repeat', L. reflexivity.
  - cbn in L. subst n. exists [], []. reflexivity.
Qed.

Lemma steady_rows : forall md u idx q n c, steady md -> nth 2 (spring_signature md) false = true -> mt_spring_fct md u idx q 0 n = Ok c -> one_row c n.
Proof.
  intros md u idx q n c S2 SG E.
  assert (SC : forall ct cm c0, one_row c0 n -> one_row (scaled_rows ct cm c0) n).
  { intros ct cm c0 (t & s & ->). unfold scaled_rows. cbn [fst snd]. rewrite !map_repeat'. do 2 eexists. reflexivity. }
  assert (OK : forall a b : LateralModel.curves, Ok a = Ok b -> a = b) by (intros a b W; congruence).
  assert (G : exists ct cm c0, mt_curve md u idx q 0 n = Ok c0 /\ c = scaled_rows ct cm c0).
  { unfold mt_spring_fct in E. destruct md; try (cbn in SG; discriminate SG);
      unfold inside_layer in E; repeat match type of E with (if ?b then _ else _) = _ => destruct b; [|try discriminate E]; try discriminate E end;
      (match type of E with bind ?a _ = _ => destruct a as [c0|] eqn:C; [|discriminate E] end); cbn [bind] in E; do 3 eexists; (split; [reflexivity|symmetry; apply OK; exact E]). }
  destruct G as (ct & cm & c0 & C & ->). apply SC. clear E. 
  destruct md; cbn [steady] in S2; try contradiction; cbn [spring_signature nth] in SG; try congruence; cbn [mt_curve] in C.
  - destruct (value Su q) as [s|]; [|cbn [bind] in C; discriminate C]. cbn [bind] in C. destruct (value G0 q) as [g|]; [|discriminate]. cbn [bind] in C. destruct (py_bothkennar _ _ _ _ _) as [pc|] eqn:P; [|discriminate]. cbn [bind] in C.
    apply (rows_const n (snd pc) _ _) in C; [exact C|]. unfold py_bothkennar in P. apply nonzero_ok in P. exact (scaled_length _ _ _ _ _ _ _ _ _ P).
  - destruct (value Su q) as [s|]; [|cbn [bind] in C; discriminate C]. cbn [bind] in C. destruct (value G0 q) as [g|]; [|discriminate]. cbn [bind] in C. destruct (py_cowden _ _ _ _ _) as [pc|] eqn:P; [|discriminate]. cbn [bind] in C.
    apply (rows_const n (snd pc) _ _) in C; [exact C|]. unfold py_cowden in P. apply nonzero_ok in P. exact (scaled_length _ _ _ _ _ _ _ _ _ P).
  - destruct (value Su q) as [s|]; [|cbn [bind] in C; discriminate C]. cbn [bind] in C. destruct (AxialModel.tz_api_clay _ _ _ _ _ _ _ _ _) as [z tz]. assert (EC : c0 = (repeat (api_rotation (q_D q) n z) n, repeat (map Some (api_moment (q_D q) n tz 1)) n)) by congruence.
    subst c0. do 2 eexists. reflexivity.
  - destruct (value Su q) as [s|]; [|cbn [bind] in C; discriminate C]. cbn [bind] in C. destruct (AxialModel.tz_api_clay _ _ _ _ _ _ _ _ _) as [z tz]. assert (EC : c0 = (repeat (api_rotation (q_D q) n z) n, repeat (map Some (api_moment (q_D q) n tz 1)) n)) by congruence.
    subst c0. do 2 eexists. reflexivity.
  - destruct (custom_value Su q) as [s|]; [|discriminate]. cbn [bind] in C. destruct (custom_value G0 q) as [g|]; [|discriminate]. cbn [bind] in C. destruct (with_four py q _) as [pc|] eqn:P; [|discriminate]. cbn [bind] in C.
    apply (rows_const n (snd pc) _ _) in C; [exact C|]. eapply four_length; [|exact P]. intros x0 n0 k0 y0 c' E'. exact (scaled_length _ _ _ _ _ _ _ _ _ E').
Qed.

Lemma nth_repeat_in : forall A (a d : A) n i, (i < n)%nat -> nth i (repeat a n) d = a.
Proof. intros A a d. induction n as [|n IH]; intros [|i] H; cbn; try lia; [reflexivity|apply IH; lia]. Qed.

(** The stored points of one rotation are equal *)
Lemma steady_stored : forall rnd md u idx q cols k i, steady md -> nth 2 (spring_signature md) false = true -> holds_curves rnd (mt_spring_fct md u idx q 0 15) cols -> (k < 15)%nat -> (i < 15)%nat ->
  xy (nth k cols []) i = xy (nth k cols []) 0.
Proof.
  intros rnd md u idx q cols k i S2 SG (T & M & E & _ & H) Hk Hi. destruct (steady_rows md u idx q 15 _ S2 SG E) as (t & s & EC).
  assert (ET : T = repeat t 15) by congruence. assert (EM : map (map Some) M = repeat s 15) by congruence.
  assert (LM : length M = 15%nat) by (rewrite <- (map_length (map Some) M), EM, repeat_length; reflexivity).
  assert (SM : forall a, (a < 15)%nat -> map Some (nth a M []) = s).
  { intros a Ha. rewrite <- (map_nth (map Some) M [] a : nth a (map (map Some) M) (map Some []) = _). rewrite EM. apply nth_repeat_in; exact Ha. }
  assert (IN : forall l l' : list R, map Some l = map Some l' -> l = l').
  { induction l as [|a l IHl]; intros [|b l'] W; cbn in W; try discriminate W; [reflexivity|]. f_equal; [congruence|apply IHl; congruence]. }
  rewrite (H k i Hk Hi), (H k 0%nat Hk ltac:(lia)). subst T. rewrite !nth_repeat_in by lia.
  rewrite (IN (nth i M []) (nth 0 M [])); [reflexivity|]. rewrite !SM by lia. reflexivity.
Qed.
