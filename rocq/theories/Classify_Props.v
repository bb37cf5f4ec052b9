(** C131: the examples of classification. *)
From Coq Require Import Lia Reals Lra.
From Verif Require Import Base Conv_Model Pool_Model Norm_Props Rnn_Model Rnn_Props DataLoader_Model DataLoader_Props Classify_Model.
Local Open Scope list_scope.
Local Notation length := List.length.

(** ** The network for MNIST *)
(** It is for 28 by 28 images, but accepts exactly the images of one channel with (h - 4) (w - 4) = 576. *)
Theorem C131_cnn : forall c h w, (0 <= h)%Z -> (0 <= w)%Z ->
  ((exists s, cnn [c; h; w] = Ok s) <-> c = 1%Z /\ (4 < h)%Z /\ (4 < w)%Z /\ ((h - 4) * (w - 4) = 576)%Z) /\ (forall s, cnn [c; h; w] = Ok s -> s = [10%Z]).
Proof.
  intros c h w Hh Hw. unfold cnn, conv_2d. destruct (Z.eqb_spec c 1) as [->|N]; cbn [bind]; [|split; [split; [intros [s H]; discriminate|intros [H _]; contradiction]|discriminate]].
  assert (O : forall n, (0 <= n)%Z -> out_size n 0 0 4 1 1 1 = Z.max 0 (n - 3)).
  { intros n Hn. unfold out_size, dil. destruct (Z.eqb_spec n 0) as [->|N]; [reflexivity|]. change (if (4 =? 0)%Z then 0%Z else ((4 - 1) * 1 + 1)%Z) with 4%Z. rewrite Z.div_1_r. lia. }
  rewrite !O by assumption. unfold max_pool_2d. cbn [pool_init parse_ints parse_padding bind repeat]. unfold pool_shape. cbn [length Nat.eqb nsd negb use_ceil padding kernel stride bind check_padding unpack fst snd].
  change (2 <? Z.max 0 0)%Z with false. cbn [bind reduce_shape unpack]. change ((2 <=? 0)%Z || (1 <=? 0)%Z) with false. cbn [bind unpack]. unfold window_count. cbn [fst snd]. rewrite !Z.div_1_r. unfold ravel. cbn [fold_right linear].
  set (a := Z.max 0 (Z.max 0 (h - 3) + 0 + 0 - 2 + 1)). set (b := Z.max 0 (Z.max 0 (w - 3) + 0 + 0 - 2 + 1)).
  destruct (Z.eqb_spec (3 * (a * (b * 1))) 1728) as [E|E]; cbn [bind linear Z.eqb Pos.eqb].
  - split; [|intros s H; injection H as <-; reflexivity]. split; [|eauto]. intros _. split; [reflexivity|]. assert (Hab : (a * b = 576)%Z) by lia. assert (a <> 0 /\ b <> 0)%Z by (split; intros X; rewrite X in Hab; lia).
    assert (a = h - 4)%Z by lia. assert (b = w - 4)%Z by lia. split; [lia|]. split; [lia|]. congruence.
  - split; [split; [intros [s H]; discriminate|]|discriminate]. intros (_ & H1 & H2 & H3). exfalso. apply E. assert (A : a = (h - 4)%Z) by lia. assert (B : b = (w - 4)%Z) by lia. rewrite A, B. lia.
Qed.
Print Assumptions C131_cnn.
Example C131_cnn_ex : cnn [1; 28; 28]%Z = Ok [10%Z] /\ cnn [1; 22; 36]%Z = Ok [10%Z] /\ cnn [1; 32; 32]%Z = Err TypeError.
Proof. repeat split. Qed.

(** ** Log-softmax, cross-entropy and accuracy *)
Local Open Scope R_scope.
Lemma rsum_pos l : l <> [] -> Forall (fun x => 0 < x) l -> 0 < rsum l.
Proof.
  intros N F. destruct l as [|x l]; [congruence|]. apply Forall_cons_iff in F as [F1 F2]. cbn [rsum fold_right]. fold (rsum l). assert (0 <= rsum l); [|lra].
  induction l as [|y l IH]; [cbn; lra|]. apply Forall_cons_iff in F2 as [F2 F3]. cbn [rsum fold_right]. fold (rsum l). specialize (IH ltac:(discriminate) F3). lra.
Qed.
Lemma exps_pos {A} (f : A -> R) l : Forall (fun x => 0 < x) (map (fun a => exp (f a)) l).
Proof. apply Forall_forall. intros x H. apply in_map_iff in H as (a & <- & _). apply exp_pos. Qed.
Lemma rsum_scal {A} k (f : A -> R) l : rsum (map (fun a => k * f a) l) = k * rsum (map f l).
Proof. induction l as [|a l IH]; cbn [map rsum fold_right]; [ring|]. fold (rsum (map (fun a => k * f a) l)) (rsum (map f l)). rewrite IH. ring. Qed.
Lemma rsum_nonneg l : Forall (fun x => 0 <= x) l -> 0 <= rsum l.
Proof. induction l as [|x l IH]; intros F; cbn [rsum fold_right]; [lra|]. apply Forall_cons_iff in F as [F1 F2]. fold (rsum l). specialize (IH F2). lra. Qed.
Lemma rsum_le_nth : forall l i, Forall (fun x => 0 <= x) l -> (i < length l)%nat -> nth i l 0 <= rsum l.
Proof.
  induction l as [|x l IH]; intros i F H; [cbn in H; lia|]. apply Forall_cons_iff in F as [F1 F2]. cbn [rsum fold_right]. fold (rsum l). destruct i as [|i]; cbn [nth]; [pose proof (rsum_nonneg l F2); lra|]. specialize (IH i F2 ltac:(cbn in H; lia)). lra.
Qed.
Lemma rsum_two : forall l i j, Forall (fun x => 0 <= x) l -> (i < length l)%nat -> (j < length l)%nat -> i <> j -> nth i l 0 + nth j l 0 <= rsum l.
Proof.
  induction l as [|x l IH]; intros i j F Hi Hj N; [cbn in Hi; lia|]. apply Forall_cons_iff in F as [F1 F2]. cbn [rsum fold_right length] in *. fold (rsum l). destruct i as [|i], j as [|j]; cbn [nth].
  - congruence.
  - pose proof (rsum_le_nth l j F2 ltac:(lia)). lra.
  - pose proof (rsum_le_nth l i F2 ltac:(lia)). lra.
  - specialize (IH i j F2 ltac:(lia) ltac:(lia) ltac:(congruence)). lra.
Qed.
(** There must be a class. *)
Theorem C131_no_classes : log_softmax [] = Err ValueError.
Proof. reflexivity. Qed.
Print Assumptions C131_no_classes.
(** The results are the logarithms of probabilities, of numbers with the same differences; the greatest number is not needed for that. *)
Theorem C131_log_softmax : forall x, x <> [] -> exists l, log_softmax x = Ok l /\ length l = length x /\ rsum (map exp l) = 1 /\ Forall (fun v => v <= 0) l /\
  l = map (fun v => v - ln (rsum (map exp x))) x.
Proof.
  intros x N. destruct x as [|a x]; [congruence|]. unfold log_softmax. set (m := fold_left Rmax x a). clearbody m. set (xs := a :: x) in *. clearbody xs. cbv zeta. eexists. split; [reflexivity|]. split; [rewrite !map_length; reflexivity|].
  assert (SP : 0 < rsum (map exp xs)) by (apply rsum_pos; [destruct xs; [congruence|discriminate]|apply (exps_pos (fun v => v))]).
  assert (Sh : rsum (map exp (map (fun v => v - m) xs)) = exp (- m) * rsum (map exp xs)).
  { rewrite map_map, <- rsum_scal. f_equal. apply map_ext. intros v. rewrite <- exp_plus. f_equal. ring. }
  assert (E : map (fun v => v - ln (rsum (map exp (map (fun v => v - m) xs)))) (map (fun v => v - m) xs) = map (fun v => v - ln (rsum (map exp xs))) xs).
  { rewrite Sh, ln_mult by (try apply exp_pos; exact SP). rewrite ln_exp, map_map. apply map_ext. intros v. ring. }
  rewrite E. assert (One : rsum (map exp (map (fun v => v - ln (rsum (map exp xs))) xs)) = 1).
  { rewrite map_map. replace (map (fun v => exp (v - ln (rsum (map exp xs)))) xs) with (map (fun v => / rsum (map exp xs) * exp v) xs); [rewrite rsum_scal; field; lra|].
    apply map_ext. intros v. unfold Rminus. rewrite exp_plus, exp_Ropp, exp_ln by exact SP. ring. }
  split; [exact One|]. split; [|reflexivity]. apply Forall_forall. intros v Hv. apply (In_nth _ _ 0) in Hv as (i & Hi & <-).
  pose proof (rsum_le_nth (map exp (map (fun v => v - ln (rsum (map exp xs))) xs)) i) as L. rewrite One in L. rewrite map_length in L. specialize (L (Forall_impl _ (fun a (Ha : 0 < a) => Rlt_le _ _ Ha) (exps_pos (fun v => v) _)) Hi).
  rewrite (nth_indep _ 0 (exp 0)) in L by (rewrite map_length; exact Hi). rewrite map_nth in L. destruct (Rle_dec (nth i (map (fun v => v - ln (rsum (map exp xs))) xs) 0) 0) as [H|H]; [exact H|]. exfalso.
  assert (H2 : exp 0 < exp (nth i (map (fun v => v - ln (rsum (map exp xs))) xs) 0)) by (apply exp_increasing; lra). rewrite exp_0 in H2. lra.
Qed.
Print Assumptions C131_log_softmax.

Lemma argmax_from_ok : forall l i best bv (all : list R), (best < i)%nat -> skipn i all = l -> nth best all 0 = bv -> (forall k, (k < i)%nat -> nth k all 0 <= bv) -> (i <= length all)%nat ->
  (argmax_from i best bv l < length all)%nat /\ forall k, (k < length all)%nat -> nth k all 0 <= nth (argmax_from i best bv l) all 0.
Proof.
  induction l as [|x l IH]; intros i best bv all Hb Hs Hv Hm Hi.
  - assert (length all = i). { assert (L : length (skipn i all) = 0%nat) by (rewrite Hs; reflexivity). rewrite skipn_length in L. lia. }
    cbn [argmax_from]. split; [lia|]. intros k Hk. rewrite Hv. apply Hm. lia.
  - assert (L : (i < length all)%nat). { assert (L : length (skipn i all) = S (length l)) by (rewrite Hs; reflexivity). rewrite skipn_length in L. lia. }
    assert (X : nth i all 0 = x). { rewrite <- (firstn_skipn i all), app_nth2 by (rewrite firstn_length; lia). rewrite firstn_length, Nat.min_l by lia. rewrite Nat.sub_diag, Hs. reflexivity. }
    assert (Hs' : skipn (S i) all = l). { clear - Hs. revert all Hs. induction i as [|i IH]; intros [|y all] H; try discriminate; [cbn in H; injection H as _ H; exact H|]. cbn [skipn] in *. apply IH. exact H. }
    cbn [argmax_from]. destruct (Rlt_dec bv x) as [Lt|Ge].
    + apply IH; try assumption; try lia. intros k Hk. destruct (Nat.eq_dec k i) as [->|]; [rewrite X; lra|]. specialize (Hm k ltac:(lia)). lra.
    + apply IH; try assumption; try lia. intros k Hk. destruct (Nat.eq_dec k i) as [->|]; [rewrite X; lra|]. apply Hm. lia.
Qed.
Lemma argmax_ok l : l <> [] -> (argmax l < length l)%nat /\ forall k, (k < length l)%nat -> nth k l 0 <= nth (argmax l) l 0.
Proof.
  destruct l as [|x l]; [congruence|]. intros _. unfold argmax. apply (argmax_from_ok l 1 0 x (x :: l)); try reflexivity; cbn; try lia. intros [|k] H; [cbn; lra|lia].
Qed.
(** The prediction of a row is the first of the greatest. *)
Theorem C131_argmax : forall l, l <> [] -> let i := argmax l in
  (i < length l)%nat /\ (forall k, (k < length l)%nat -> nth k l 0 <= nth i l 0) /\ (forall k, (k < i)%nat -> nth k l 0 < nth i l 0).
Proof.
  intros l N i. destruct (argmax_ok l N) as [A1 A2]. split; [exact A1|]. split; [exact A2|]. destruct l as [|x l]; [congruence|]. unfold i, argmax.
  assert (G : forall l i best bv all, (best < i)%nat -> skipn i all = l -> nth best all 0 = bv -> (forall k, (k < i)%nat -> nth k all 0 <= bv) -> (forall k, (k < best)%nat -> nth k all 0 < bv) ->
    (i <= length all)%nat -> forall k, (k < argmax_from i best bv l)%nat -> nth k all 0 < nth (argmax_from i best bv l) all 0).
  { clear. induction l as [|x l IH]; intros i best bv all Hb Hs Hv Hm Hf Hi.
    - cbn [argmax_from]. rewrite Hv. exact Hf.
    - assert (L : (i < length all)%nat). { assert (L : length (skipn i all) = S (length l)) by (rewrite Hs; reflexivity). rewrite skipn_length in L. lia. }
      assert (X : nth i all 0 = x). { rewrite <- (firstn_skipn i all), app_nth2 by (rewrite firstn_length; lia). rewrite firstn_length, Nat.min_l by lia. rewrite Nat.sub_diag, Hs. reflexivity. }
      assert (Hs' : skipn (S i) all = l). { clear - Hs. revert all Hs. induction i as [|i IH]; intros [|y all] H; try discriminate; [cbn in H; injection H as _ H; exact H|]. cbn [skipn] in *. apply IH. exact H. }
      cbn [argmax_from]. destruct (Rlt_dec bv x) as [Lt|Ge].
      + apply IH; try assumption; try lia; intros k Hk; [destruct (Nat.eq_dec k i) as [->|]; [rewrite X; lra|]|]; specialize (Hm k ltac:(lia)); lra.
      + apply IH; try assumption; try lia. intros k Hk. destruct (Nat.eq_dec k i) as [->|]; [rewrite X; lra|]. apply Hm. lia. }
  apply (G l 1%nat 0%nat x (x :: l)); try reflexivity; cbn; try lia. intros [|k] H; [cbn; lra|lia].
Qed.
Print Assumptions C131_argmax.
Example C131_argmax_ex : argmax [1; 3; 2; 3] = 1%nat.
Proof. unfold argmax, argmax_from. repeat (destruct (Rlt_dec _ _); try lra). reflexivity. Qed.
(** A row of predictions. *)
Definition log_probabilities (row : list R) : Prop := rsum (map exp row) = 1.
(** With labels from 0 to n - 1 the loss is the mean of minus the logarithms of the probabilities of the labels, and nonnegative. *)
Theorem C131_cross_entropy : forall ys pred, length ys = length pred -> ys <> [] -> Forall2 (fun y row => (0 <= y < Z.of_nat (length row))%Z /\ log_probabilities row) ys pred ->
  exists v, cross_entropy ys pred = Some v /\ 0 <= v /\ v = rmean (map (fun p => - nth (Z.to_nat (fst p)) (snd p) 0) (List.combine ys pred)).
Proof.
  intros ys pred L N F. unfold cross_entropy.
  assert (T : takes pred ys = Some (map (fun p => nth (Z.to_nat (fst p)) (snd p) 0) (List.combine ys pred))).
  { clear N L. induction F as [|y row ys pred [H _] F IH]; [reflexivity|]. cbn [takes]. rewrite IH. unfold take. destruct (Z.ltb_spec y 0); [lia|]. destruct (Z.leb_spec 0 y); [|lia]. destruct (Z.ltb_spec y (Z.of_nat (length row))); [|lia]. cbn [andb].
    rewrite (nth_error_nth' row 0) by lia. reflexivity. }
  rewrite T. cbn [option_map]. eexists. split; [reflexivity|].
  assert (E : - rmean (map (fun p => nth (Z.to_nat (fst p)) (snd p) 0) (List.combine ys pred)) = rmean (map (fun p => - nth (Z.to_nat (fst p)) (snd p) 0) (List.combine ys pred))).
  { unfold rmean. rewrite !map_length. replace (map (fun p => - nth (Z.to_nat (fst p)) (snd p) 0) (List.combine ys pred)) with (map (fun p => -1 * nth (Z.to_nat (fst p)) (snd p) 0) (List.combine ys pred)) by (apply map_ext; intros; ring). rewrite rsum_scal. unfold Rdiv. ring. }
  split; [|exact E]. rewrite E. unfold rmean. apply Rmult_le_pos.
  - apply rsum_nonneg. apply Forall_forall. intros v Hv. apply in_map_iff in Hv as ([y row] & <- & I). cbn [fst snd]. assert (Y : (0 <= y < Z.of_nat (length row))%Z /\ log_probabilities row).
    { clear - F I. induction F as [|a b ys pred H F IH]; [destruct I|]. destruct I as [I|I]; [injection I as <- <-; exact H|exact (IH I)]. }
    destruct Y as [Y P]. assert (Ln : (Z.to_nat y < length row)%nat) by lia. pose proof (rsum_le_nth (map exp row) (Z.to_nat y) (Forall_impl _ (fun a (Ha : 0 < a) => Rlt_le _ _ Ha) (exps_pos (fun v => v) _))) as Q. rewrite map_length in Q. specialize (Q Ln). rewrite P in Q.
    rewrite (nth_indep _ 0 (exp 0)) in Q by (rewrite map_length; exact Ln). rewrite map_nth in Q. destruct (Rle_dec (nth (Z.to_nat y) row 0) 0) as [H|H]; [lra|]. assert (H2 : exp 0 < exp (nth (Z.to_nat y) row 0)) by (apply exp_increasing; lra). rewrite exp_0 in H2. lra.
  - left. apply Rinv_0_lt_compat. apply lt_0_INR. rewrite map_length, combine_length. destruct ys, pred; try discriminate; [congruence|]. cbn. lia.
Qed.
Print Assumptions C131_cross_entropy.
(** Labels from -n to -1 silently count from the end; others make the loss NaN. *)
Theorem C131_labels : forall row y, row <> [] ->
  take row y = if ((0 <=? y) && (y <? Z.of_nat (length row)))%Z then nth_error row (Z.to_nat y)
               else if ((- Z.of_nat (length row) <=? y) && (y <? 0))%Z then nth_error row (Z.to_nat (y + Z.of_nat (length row))) else None.
Proof.
  intros row y N. unfold take. destruct (Z.ltb_spec y 0), (Z.leb_spec 0 y), (Z.ltb_spec y (Z.of_nat (length row))), (Z.leb_spec (- Z.of_nat (length row)) y), (Z.leb_spec 0 (y + Z.of_nat (length row))), (Z.ltb_spec (y + Z.of_nat (length row)) (Z.of_nat (length row))); cbn [andb]; try reflexivity; lia.
Qed.
Print Assumptions C131_labels.
(** One label out of range makes the loss of the whole batch NaN; nothing else does. *)
Theorem C131_nan : forall ys pred, length ys = length pred ->
  (cross_entropy ys pred = None <-> exists i, (i < length ys)%nat /\ (nth i ys 0 < - Z.of_nat (length (nth i pred [])) \/ Z.of_nat (length (nth i pred [])) <= nth i ys 0)%Z).
Proof.
  assert (T : forall row y, take row y = None <-> (y < - Z.of_nat (length row) \/ Z.of_nat (length row) <= y)%Z).
  { intros row y. unfold take. destruct (Z.ltb_spec y 0).
    - destruct (Z.leb_spec 0 (y + Z.of_nat (length row))), (Z.ltb_spec (y + Z.of_nat (length row)) (Z.of_nat (length row))); cbn [andb]; rewrite ?nth_error_None; split; intros; try reflexivity; lia.
    - destruct (Z.leb_spec 0 y), (Z.ltb_spec y (Z.of_nat (length row))); cbn [andb]; rewrite ?nth_error_None; split; intros; try reflexivity; lia. }
  intros ys pred L. assert (E : cross_entropy ys pred = None <-> takes pred ys = None) by (unfold cross_entropy; destruct (takes pred ys); split; (discriminate || reflexivity)). rewrite E. clear E.
  revert pred L. induction ys as [|y ys IH]; intros [|row pred] L; try discriminate.
  - cbn. split; [discriminate|]. intros (i & Hi & _). lia.
  - cbn [takes]. specialize (IH pred ltac:(cbn in L; lia)). specialize (T row y). destruct (take row y) as [v|].
    + destruct (takes pred ys) as [vs|].
      * split; [discriminate|]. intros ([|i] & Hi & H); cbn [nth length] in *; [apply T in H; discriminate|]. assert (X : Some vs = None) by (apply IH; exists i; split; [lia|exact H]). discriminate.
      * split; [|reflexivity]. intros _. destruct (proj1 IH eq_refl) as (i & Hi & H). exists (S i). cbn [nth length]. split; [lia|exact H].
    + split; [|reflexivity]. intros _. exists 0%nat. cbn [nth length]. split; [lia|]. apply T. reflexivity.
Qed.
Print Assumptions C131_nan.
(** The proportion of wrong answers is at most the loss divided by ln 2. *)
Theorem C131_accuracy : forall ys pred v, ys <> [] -> Forall2 (fun y row => (0 <= y < Z.of_nat (length row))%Z /\ log_probabilities row) ys pred -> cross_entropy ys pred = Some v ->
  0 <= accuracy ys pred <= 1 /\ (1 - accuracy ys pred) * ln 2 <= v.
Proof.
  intros ys pred v N F Hv. assert (L : length ys = length pred) by (clear - F; induction F; cbn; congruence). destruct (C131_cross_entropy ys pred L N F) as (v' & E & _ & Ev). rewrite Hv in E. injection E as <-. rewrite Ev. clear Ev Hv.
  set (ps := List.combine ys pred). assert (Lp : (0 < length ps)%nat) by (unfold ps; rewrite combine_length; destruct ys, pred; try discriminate; [congruence|cbn; lia]).
  assert (Fp : Forall (fun p => (0 <= fst p < Z.of_nat (length (snd p)))%Z /\ log_probabilities (snd p)) ps).
  { unfold ps. clear - F. induction F as [|y row ys pred H F IH]; constructor; assumption. }
  unfold accuracy. fold ps. clearbody ps. clear - Lp Fp. unfold rmean. rewrite !map_length.
  assert (IP : 0 < INR (length ps)) by (apply lt_0_INR; exact Lp). assert (Iv : 0 < / INR (length ps)) by (apply Rinv_0_lt_compat; exact IP).
  assert (L2 : 0 < ln 2) by (rewrite <- ln_1; apply ln_increasing; lra).
  assert (B : forall qs, Forall (fun p => (0 <= fst p < Z.of_nat (length (snd p)))%Z /\ log_probabilities (snd p)) qs ->
    0 <= rsum (map (fun p : Z * list R => if right (fst p) (snd p) then 1 else 0) qs) <= INR (length qs) /\
    (INR (length qs) - rsum (map (fun p : Z * list R => if right (fst p) (snd p) then 1 else 0) qs)) * ln 2 <= rsum (map (fun p => - nth (Z.to_nat (fst p)) (snd p) 0) qs)).
  { induction qs as [|[y row] qs IH]; intros Fq; [cbn; lra|]. apply Forall_cons_iff in Fq as [[Hy P] Fq]. cbn [fst snd] in Hy, P. destruct (IH Fq) as [I1 I2]. cbn [map fst snd length]. rewrite S_INR. unfold rsum at 1 2 3 4. cbn [fold_right].
    fold (rsum (map (fun p : Z * list R => if right (fst p) (snd p) then 1 else 0) qs)) (rsum (map (fun p : Z * list R => - nth (Z.to_nat (fst p)) (snd p) 0) qs)).
    assert (Ly : (Z.to_nat y < length row)%nat) by lia. assert (Fe : Forall (fun x => 0 <= x) (map exp row)) by exact (Forall_impl _ (fun a (Ha : 0 < a) => Rlt_le _ _ Ha) (exps_pos (fun v => v) row)).
    assert (Ne : forall k, (k < length row)%nat -> nth k (map exp row) 0 = exp (nth k row 0)) by (intros k Hk; rewrite (nth_indep _ 0 (exp 0)) by (rewrite map_length; exact Hk); apply map_nth).
    assert (K : (if right y row then 0 else ln 2) <= - nth (Z.to_nat y) row 0).
    { destruct (right y row) eqn:R.
      - pose proof (rsum_le_nth (map exp row) (Z.to_nat y) Fe) as Q. rewrite map_length in Q. specialize (Q Ly). rewrite P, Ne in Q by exact Ly. destruct (Rle_dec (nth (Z.to_nat y) row 0) 0) as [H|H]; [lra|]. assert (H2 : exp 0 < exp (nth (Z.to_nat y) row 0)) by (apply exp_increasing; lra). rewrite exp_0 in H2. lra.
      - assert (Nr : row <> []) by (destruct row; [cbn in Ly; lia|discriminate]). destruct (argmax_ok row Nr) as [A1 A2]. unfold right in R. apply Z.eqb_neq in R.
        pose proof (rsum_two (map exp row) (argmax row) (Z.to_nat y) Fe) as Q. rewrite map_length in Q. specialize (Q A1 Ly ltac:(lia)). rewrite P, !Ne in Q by assumption. specialize (A2 _ Ly).
        assert (exp (nth (Z.to_nat y) row 0) <= exp (nth (argmax row) row 0)) by (destruct A2 as [A2|A2]; [left; apply exp_increasing; exact A2|right; rewrite A2; reflexivity]).
        assert (H2 : exp (nth (Z.to_nat y) row 0) <= / 2) by lra. apply Ropp_le_cancel. rewrite Ropp_involutive. rewrite <- (ln_exp (nth (Z.to_nat y) row 0)). rewrite <- ln_Rinv by lra.
        destruct H2 as [H2|H2]; [left; apply ln_increasing; [apply exp_pos|exact H2]|right; rewrite H2; reflexivity]. }
    destruct (right y row); split; nra. }
  destruct (B ps Fp) as [[B0 B1] B2]. set (a := rsum (map (fun p : Z * list R => if right (fst p) (snd p) then 1 else 0) ps)) in *. set (w := rsum (map (fun p => - nth (Z.to_nat (fst p)) (snd p) 0) ps)) in *. set (n := INR (length ps)) in *.
  unfold Rdiv. assert (NI : n * / n = 1) by (field; lra). split; [split; [apply Rmult_le_pos; lra|]|].
  - rewrite <- NI. apply Rmult_le_compat_r; lra.
  - replace ((1 - a * / n) * ln 2) with ((n - a) * ln 2 * / n) by (field; lra). apply Rmult_le_compat_r; lra.
Qed.
Print Assumptions C131_accuracy.

(** ** Evaluation *)
Lemma rsum_app l l' : rsum (l ++ l') = rsum l + rsum l'.
Proof. induction l as [|x l IH]; cbn [app rsum fold_right]; [unfold rsum; cbn; ring|]. fold (rsum (l ++ l')) (rsum l). rewrite IH. ring. Qed.
(** What is reported is a weighted average: examples of the last, smaller batch count more. *)
Theorem C131_evaluate : forall A (f : A -> R) (xs : list A) q b r, (0 < b)%nat -> (0 < r <= b)%nat -> length xs = (q * b + r)%nat ->
  exists bts, (forall fuel, (q + 1 <= fuel)%nat -> eval_items fuel [xs] b = Some (Ok bts)) /\
    evaluate_examples f bts = (rsum (map f (firstn (q * b) xs)) / INR b + rsum (map f (skipn (q * b) xs)) / INR r) / INR (q + 1).
Proof.
  intros A f xs q b r Hb Hr Hn. destruct (C122_eval A [xs] (length xs) b) as (bts & E & L & Z & C); [split; [discriminate|constructor; [reflexivity|constructor]]|exact Hb|].
  assert (Bn : batches_of (length xs) b = (q + 1)%nat).
  { destruct (batches_of_ok (length xs) b Hb) as [B1 B2]. rewrite Hn in *. set (k := batches_of (q * b + r) b) in *. clearbody k. destruct B2 as [->|B2]; [cbn in B1; lia|].
    assert (U : (k - 1 <= q)%nat). { destruct (le_lt_dec (k - 1) q) as [|X]; [assumption|]. assert (Y : (S q * b <= (k - 1) * b)%nat) by (apply Nat.mul_le_mono_r; lia). cbn [Nat.mul] in Y. lia. }
    assert (V : (q < k)%nat). { destruct (le_lt_dec k q) as [X|]; [|assumption]. assert (Y : (k * b <= q * b)%nat) by (apply Nat.mul_le_mono_r; lia). lia. } lia. }
  exists bts. split; [intros fuel Hf; apply E; lia|].
  specialize (C 0%nat xs eq_refl). set (ls := map (fun bt => nth 0 bt []) bts) in *.
  assert (Ll : length ls = (q + 1)%nat) by (unfold ls; rewrite map_length, L; exact Bn).
  assert (Sz : forall i, (i < q + 1)%nat -> length (nth i ls []) = Nat.min b (length xs - i * b)).
  { intros i Hi. destruct (nth_error bts i) as [bt|] eqn:Ei; [|apply nth_error_None in Ei; lia]. destruct (Z i bt Ei) as [Z1 Z2]. unfold ls. assert (M : nth_error (map (fun bt => nth 0 bt []) bts) i = Some (nth 0 bt [])) by (rewrite nth_error_map, Ei; reflexivity). apply nth_error_nth with (d := []) in M. rewrite M.
    destruct bt as [|x bt]; [discriminate|]. apply Forall_cons_iff in Z2 as [Z2 _]. exact Z2. }
  assert (Ev : evaluate_examples f bts = rsum (map (fun l => rmean (map f l)) ls) / INR (q + 1)).
  { unfold evaluate_examples, evaluate. assert (G : forall bs s n, fold_left (fun s0 x => (fst s0 + rmean (map f (hd [] x)), S (snd s0))) bs (s, n) = (s + rsum (map (fun l => rmean (map f l)) (map (fun bt : list (list A) => nth 0 bt []) bs)), (n + length bs)%nat)).
    { induction bs as [|x bs IH]; intros s n; [cbn; f_equal; [ring|lia]|]. cbn [fold_left fst snd]. rewrite IH. cbn [map rsum fold_right length]. f_equal; [|lia]. fold (rsum (map (fun l => rmean (map f l)) (map (fun bt : list (list A) => nth 0 bt []) bs))). destruct x; cbn [hd nth]; ring. }
    rewrite G. fold ls. rewrite Rplus_0_l, Nat.add_0_l, L, Bn. reflexivity. }
  rewrite Ev. clear Ev. apply (f_equal (fun z => z / INR (q + 1))).
  assert (Sp : ls = firstn q ls ++ [nth q ls []]).
  { rewrite <- (firstn_skipn q ls) at 1. f_equal. assert (Ls : length (skipn q ls) = 1%nat) by (rewrite skipn_length; lia). destruct (skipn q ls) as [|x [|y s]] eqn:Es; try discriminate. f_equal. rewrite <- (firstn_skipn q ls), app_nth2 by (rewrite firstn_length; lia). rewrite firstn_length, Nat.min_l by lia. rewrite Nat.sub_diag, Es. reflexivity. }
  set (full := firstn q ls) in *. set (lst := nth q ls []) in *.
  assert (Lf : Forall (fun l => length l = b) full).
  { apply Forall_forall. intros l Hl. apply (In_nth _ _ []) in Hl as (i & Hi & <-). assert (Lq : length full = q) by (unfold full; rewrite firstn_length; lia). rewrite Lq in Hi. assert (Ni : nth i full [] = nth i ls []) by (rewrite Sp; rewrite app_nth1 by lia; reflexivity). rewrite Ni, Sz by lia.
    assert (Y : (S i * b <= q * b)%nat) by (apply Nat.mul_le_mono_r; lia). cbn [Nat.mul] in Y. rewrite Hn. lia. }
  assert (Lr : length lst = r) by (unfold lst; rewrite Sz by lia; rewrite Hn; lia).
  assert (Lc : length (List.concat full) = (q * b)%nat).
  { assert (Lq : length full = q) by (unfold full; rewrite firstn_length; lia). rewrite <- Lq. clear - Lf. induction Lf as [|l full H F IH]; [reflexivity|]. cbn [List.concat length Nat.mul]. rewrite app_length, H, IH. reflexivity. }
  assert (X : xs = List.concat full ++ lst) by (rewrite <- C, Sp at 1; rewrite concat_app; cbn [List.concat]; rewrite app_nil_r; reflexivity).
  assert (X1 : firstn (q * b) xs = List.concat full) by (rewrite X, <- Lc, firstn_app, firstn_all, Nat.sub_diag; cbn [firstn]; apply app_nil_r).
  assert (X2 : skipn (q * b) xs = lst) by (rewrite X, <- Lc, skipn_app, skipn_all, Nat.sub_diag; reflexivity).
  rewrite X1, X2, Sp, map_app, rsum_app. f_equal.
  - assert (Bp : 0 < INR b) by (apply lt_0_INR; exact Hb). clearbody full. clear - Lf Bp. induction Lf as [|l full H F IH]; [cbn; unfold Rdiv; ring|]. cbn [map rsum fold_right List.concat]. fold (rsum (map (fun l => rmean (map f l)) full)). rewrite map_app, rsum_app, IH. unfold rmean. rewrite map_length, H. field. lra.
  - cbn [map rsum fold_right]. unfold rmean. rewrite map_length, Lr. ring.
Qed.
Print Assumptions C131_evaluate.
(** The example: 10000 images in batches of 64; each of the last 16 counts four times as much as any other. *)
Theorem C131_evaluate_mnist_refuted : forall A (f : A -> R) (xs : list A), length xs = (100 * 100)%nat -> exists bts, (forall fuel, (157 <= fuel)%nat -> eval_items fuel [xs] 64 = Some (Ok bts)) /\
  evaluate_examples f bts = (rsum (map f (firstn (156 * 64) xs)) + 4 * rsum (map f (skipn (156 * 64) xs))) / (64 * 157).
Proof.
  intros A f xs H. destruct (C131_evaluate A f xs 156 64 16) as (bts & E & V); [lia|lia|rewrite H; reflexivity|]. exists bts. split; [exact E|]. rewrite V.
  rewrite (INR_IZR_INZ 64), (INR_IZR_INZ 16), (INR_IZR_INZ (156 + 1)). change (Z.of_nat 64) with 64%Z. change (Z.of_nat 16) with 16%Z. change (Z.of_nat (156 + 1)) with 157%Z. field.
Qed.
Print Assumptions C131_evaluate_mnist_refuted.

(** ** The recurrent network *)
(** The label can be read off the data: the two kinds of spirals turn in different directions, at every time and for all offsets. *)
Theorem C131_spirals : forall n i k offset, (k < 15)%nat -> let p := point n i k offset in let p' := point n i (S k) offset in
  let turn := fst p * snd p' - snd p * fst p' in (label n i = 1 <-> turn < 0) /\ (label n i = 0 <-> 0 < turn).
Proof.
  intros n i k o Hk p p' turn. pose proof PI_RGT_0 as PP.
  assert (T0 : 0 <= time_at k) by (unfold time_at; apply Rmult_le_pos; [apply Rmult_le_pos; [lra|apply pos_INR]|lra]). assert (T1 : 0 <= time_at (S k)) by (unfold time_at; apply Rmult_le_pos; [apply Rmult_le_pos; [lra|apply pos_INR]|lra]).
  set (t := time_at k) in *. set (t' := time_at (S k)) in *. assert (D : t' - t = 2 * PI / 15) by (unfold t, t', time_at; rewrite S_INR; field).
  assert (S0 : 0 < sin (t' - t)) by (rewrite D; apply sin_gt_0; lra).
  assert (E : sin (t + o) * cos (t' + o) - cos (t + o) * sin (t' + o) = - sin (t' - t)) by (replace (t' - t) with ((t' + o) - (t + o)) by ring; rewrite sin_minus; ring).
  assert (Q : 0 < / ((1 + t) * (1 + t'))) by (apply Rinv_0_lt_compat, Rmult_lt_0_compat; lra).
  assert (V : turn = (if Nat.ltb i (n / 2) then 1 else -1) * (sin (t' - t) * / ((1 + t) * (1 + t')))).
  { unfold turn, p, p', point. fold t t'. cbn [fst snd]. replace (sin (t' - t)) with (- (sin (t + o) * cos (t' + o) - cos (t + o) * sin (t' + o))) by (rewrite E; ring). destruct (Nat.ltb i (n / 2)); field; lra. }
  assert (W : 0 < sin (t' - t) * / ((1 + t) * (1 + t'))) by (apply Rmult_lt_0_compat; assumption). rewrite V. unfold label. destruct (Nat.ltb i (n / 2)); split; split; intros; lra.
Qed.
Print Assumptions C131_spirals.
Lemma scan_run : forall c xs h, scan_cell c h xs = run_gru c xs h.
Proof. intros c xs. induction xs as [|x xs IH]; intros h; [reflexivity|]. cbn [scan_cell run_gru]. destruct (call_gru c x h); [apply IH|reflexivity]. Qed.
Lemma sum_abs n f g : (forall j, (j < n)%nat -> Rabs (g j) <= 1) -> Rabs (Sum n (fun j => f j * g j)) <= Sum n (fun j => Rabs (f j)).
Proof.
  intros H. unfold Sum. assert (H' : forall j, In j (seq 0 n) -> Rabs (g j) <= 1) by (intros j Hj; apply in_seq in Hj; apply H; lia). clear H. induction (seq 0 n) as [|x l IH]; [cbn; rewrite Rabs_R0; lra|].
  cbn [map fold_right]. eapply Rle_trans; [apply Rabs_triang|]. specialize (IH (fun j Hj => H' j (or_intror Hj))). assert (Rabs (f x * g x) <= Rabs (f x)); [|lra].
  rewrite Rabs_mult. specialize (H' x (or_introl eq_refl)). pose proof (Rabs_pos (f x)). nra.
Qed.
(** For inputs of any length (even none) the predictions are strictly between 0 and 1, and bounded away from these by the last layer alone, whatever the input. *)
Theorem C131_rnn : forall I H O m xs, gru_shapes I H (cell m) -> hidden_units m = H -> is_mat O H (out_weight m) -> length (out_bias m) = O -> Forall (fun x => length x = I) xs ->
  exists ps, call_rnn m xs = Ok ps /\ length ps = O /\ forall i, (i < O)%nat ->
    let bound := Sum H (fun j => Rabs (nth j (nth i (out_weight m) []) 0)) + Rabs (nth i (out_bias m) 0) in
    0 < logistic (- bound) <= nth i ps 0 /\ nth i ps 0 <= logistic bound < 1.
Proof.
  intros I H O m xs G Hh W Bl F. unfold call_rnn, logits. rewrite scan_run, Hh.
  destruct (C74_gru_bounded I H (cell m) xs (repeat 0 H) 1 G F) as (h & E & Lh & Bh & _); [apply repeat_length|lra|intros i Hi; rewrite nth_repeat, Rabs_R0; lra|]. rewrite E. cbn [bind].
  rewrite (matvec_tab O H _ _ W Lh). cbn [bind]. 
  assert (Ee : ew Rplus (tab O (prod (out_weight m) h)) (out_bias m) = Ok (tab O (fun i => prod (out_weight m) h i + nth i (out_bias m) 0))) by (rewrite (tab_of (out_bias m)), Bl at 1; apply ew_tab).
  rewrite Ee. cbn [bind]. eexists. split; [reflexivity|]. split; [rewrite map_length, tab_length; reflexivity|]. intros i Hi. set (bound := Sum H (fun j => Rabs (nth j (nth i (out_weight m) []) 0)) + Rabs (nth i (out_bias m) 0)).
  rewrite (nth_indep _ 0 (sigmoid 0)) by (rewrite map_length, tab_length; exact Hi). rewrite map_nth, tab_nth by exact Hi. set (x := prod (out_weight m) h i + nth i (out_bias m) 0).
  assert (Bx : Rabs x <= bound).
  { unfold x, bound. eapply Rle_trans; [apply Rabs_triang|]. apply Rplus_le_compat_r. unfold prod. rewrite Lh. apply (sum_abs H (fun j => nth j (nth i (out_weight m) []) 0) (fun j => nth j h 0)). exact Bh. }
  assert (Mono : forall a b, a <= b -> logistic a <= logistic b).
  { intros a b Hab. unfold logistic. apply Rmult_le_compat_l; [lra|]. pose proof (exp_pos (- a)). pose proof (exp_pos (- b)). apply Rinv_le_contravar; [lra|]. assert (exp (- b) <= exp (- a)); [|lra]. destruct Hab as [Hab|Hab]; [left; apply exp_increasing; lra|right; rewrite Hab; reflexivity]. }
  assert (Sg : sigmoid x = logistic x) by (unfold sigmoid, logistic; field; pose proof (exp_pos (- x)); lra). rewrite Sg.
  assert (Bx' : - bound <= x <= bound) by (unfold Rabs in Bx; destruct (Rcase_abs x); lra).
  split; split; [apply logistic_bounds|apply Mono; lra|apply Mono; lra|apply logistic_bounds].
Qed.
Print Assumptions C131_rnn.
(** What they are: the logistic function of an affine function of the last hidden state. *)
Theorem C131_rnn_value : forall I H O m xs, gru_shapes I H (cell m) -> hidden_units m = H -> is_mat O H (out_weight m) -> length (out_bias m) = O -> Forall (fun x => length x = I) xs ->
  exists h ps, run_gru (cell m) xs (repeat 0 H) = Ok h /\ length h = H /\ call_rnn m xs = Ok ps /\
    forall i, (i < O)%nat -> nth i ps 0 = logistic (Sum H (fun j => nth j (nth i (out_weight m) []) 0 * nth j h 0) + nth i (out_bias m) 0).
Proof.
  intros I H O m xs G Hh W Bl F. unfold call_rnn, logits. rewrite scan_run, Hh.
  destruct (C74_gru_bounded I H (cell m) xs (repeat 0 H) 1 G F) as (h & E & Lh & Bh & _); [apply repeat_length|lra|intros i Hi; rewrite nth_repeat, Rabs_R0; lra|]. rewrite E. cbn [bind].
  rewrite (matvec_tab O H _ _ W Lh). cbn [bind].
  assert (Ee : ew Rplus (tab O (prod (out_weight m) h)) (out_bias m) = Ok (tab O (fun i => prod (out_weight m) h i + nth i (out_bias m) 0))) by (rewrite (tab_of (out_bias m)), Bl at 1; apply ew_tab).
  rewrite Ee. cbn [bind]. exists h. eexists. split; [reflexivity|]. split; [exact Lh|]. split; [reflexivity|]. intros i Hi.
  rewrite (nth_indep _ 0 (sigmoid 0)) by (rewrite map_length, tab_length; exact Hi). rewrite map_nth, tab_nth by exact Hi. unfold prod. rewrite Lh. unfold sigmoid, logistic. pose proof (exp_pos (- (Sum H (fun j => nth j (nth i (out_weight m) []) 0 * nth j h 0) + nth i (out_bias m) 0))). field. lra.
Qed.
Print Assumptions C131_rnn_value.
(** The loss of one prediction is nonnegative for labels from 0 to 1, for label 0 or 1 it is minus the logarithm of the probability of the label, and its derivative with respect to the logit is prediction minus label. *)
Theorem C131_bce : forall y z, 0 <= y <= 1 -> 0 <= bce y (sigmoid z) /\ (y = 1 -> bce y (sigmoid z) = - ln (sigmoid z)) /\ (y = 0 -> bce y (sigmoid z) = - ln (1 - sigmoid z)) /\
  derivable_pt_lim (fun z => bce y (sigmoid z)) z (sigmoid z - y).
Proof.
  intros y z Hy. assert (Sb : forall z, 0 < sigmoid z < 1).
  { intros w. pose proof (logistic_bounds w) as B. unfold logistic in B. unfold sigmoid. pose proof (exp_pos (- w)). replace (/ (1 + exp (- w))) with (1 / (1 + exp (- w))) by (field; lra). exact B. }
  assert (Lneg : forall p, 0 < p < 1 -> ln p < 0) by (intros p Hp; rewrite <- ln_1; apply ln_increasing; lra).
  split; [unfold bce; pose proof (Lneg _ (Sb z)); assert (ln (1 - sigmoid z) < 0) by (apply Lneg; pose proof (Sb z); lra); nra|].
  split; [intros ->; unfold bce; ring|]. split; [intros ->; unfold bce; ring|].
  assert (Ds : derivable_pt_lim sigmoid z (sigmoid z * (1 - sigmoid z))).
  { assert (De : derivable_pt_lim (fun u => 1 + exp (- u)) z (0 + exp (- z) * (- 1))).
    { apply derivable_pt_lim_plus; [apply derivable_pt_lim_const|]. apply (derivable_pt_lim_comp (fun u => - u) exp); [apply derivable_pt_lim_opp, derivable_pt_lim_id|apply derivable_pt_lim_exp]. }
    pose proof (exp_pos (- z)) as Ep. pose proof (derivable_pt_lim_div (fun _ => 1) (fun u => 1 + exp (- u)) z 0 _ (derivable_pt_lim_const 1 z) De ltac:(lra)) as D.
    assert (D2 : derivable_pt_lim (fun u => 1 / (1 + exp (- u))) z (sigmoid z * (1 - sigmoid z))).
    { match type of D with derivable_pt_lim _ _ ?l => replace (sigmoid z * (1 - sigmoid z)) with l; [exact D|] end. unfold sigmoid, Rsqr. field. lra. }
    intros eps Heps. destruct (D2 eps Heps) as [d Hd]. exists d. intros h H1 H2. specialize (Hd h H1 H2). unfold Rdiv in Hd at 2 3. rewrite !Rmult_1_l in Hd. exact Hd. }
  pose proof (Sb z) as S. assert (Dl : derivable_pt_lim (fun u => ln (sigmoid u)) z (/ sigmoid z * (sigmoid z * (1 - sigmoid z)))) by (apply (derivable_pt_lim_comp sigmoid ln); [exact Ds|apply derivable_pt_lim_ln; lra]).
  assert (Dm : derivable_pt_lim (fun u => 1 - sigmoid u) z (0 - sigmoid z * (1 - sigmoid z))) by (apply derivable_pt_lim_minus; [apply derivable_pt_lim_const|exact Ds]).
  assert (Dl2 : derivable_pt_lim (fun u => ln (1 - sigmoid u)) z (/ (1 - sigmoid z) * (0 - sigmoid z * (1 - sigmoid z)))) by (apply (derivable_pt_lim_comp (fun u => 1 - sigmoid u) ln); [exact Dm|apply derivable_pt_lim_ln; lra]).
  pose proof (derivable_pt_lim_opp _ _ _ (derivable_pt_lim_plus _ _ _ _ _ (derivable_pt_lim_scal _ y _ _ Dl) (derivable_pt_lim_scal _ (1 - y) _ _ Dl2))) as D.
  match type of D with derivable_pt_lim _ _ ?l => replace (sigmoid z - y) with l; [exact D|] end. field. lra.
Qed.
Print Assumptions C131_bce.

(** ** Examples *)
Example C131_labels_ex : take [1; 2; 3] (-1) = Some 3 /\ take [1; 2; 3] 3 = None /\ take [1; 2; 3] 0 = Some 1.
Proof. repeat split. Qed.
Example C131_spirals_ex : label 10 4 = 0 /\ label 10 5 = 1.
Proof. split; reflexivity. Qed.
Example C131_cross_entropy_ex : cross_entropy [1%Z; 0%Z] [[ln (/ 2); ln (/ 2)]; [ln (/ 4); ln (3 / 4)]] = Some (- ((ln (/ 2) + (ln (/ 4) + 0)) / INR 2)) /\
  log_probabilities [ln (/ 2); ln (/ 2)] /\ log_probabilities [ln (/ 4); ln (3 / 4)].
Proof. split; [reflexivity|]. unfold log_probabilities, rsum. cbn [map fold_right]. rewrite !exp_ln by lra. split; lra. Qed.
(** Without inputs, the logistic function of the bias. *)
Example C131_rnn_ex : let W := [[0]; [0]; [0]] in
  let c := {| g_ih := W; g_hh := W; g_bias := Some [0; 0; 0]; g_bias_n := Some [5]; g_input_size := 1; g_hidden_size := 1; g_use_bias := true |} in
  gru_shapes 1 1 c /\ is_mat 1 1 [[2]] /\ exists p, call_rnn (mk_rnn 1 c [[2]] [3]) [] = Ok [p] /\ p = logistic 3.
Proof.
  intros W c. split; [repeat split; try (repeat constructor); intros _; eexists; split; reflexivity|]. split; [split; [reflexivity|repeat constructor]|].
  eexists. split; [reflexivity|]. unfold sigmoid, logistic. match goal with |- / (1 + exp (- ?a)) = _ => replace a with 3 by (cbn; lra) end. pose proof (exp_pos (- (3))). field. lra.
Qed.
