(** C128: the GAN example. *)
From Coq Require Import Lia QArith FinFun.
From Verif Require Import Base Conv_Model Gan_Model.
Local Open Scope list_scope.
Local Notation length := List.length.

(** ** Shapes *)
Local Open Scope Z_scope.
Lemma half n : 0 <= n -> out_size n 1 1 4 2 1 1 = n / 2.
Proof.
  intros H. unfold out_size, dil. destruct (Z.eqb_spec n 0) as [->|N]; [reflexivity|]. change (if 4 =? 0 then 0 else (4 - 1) * 1 + 1) with 4.
  replace ((n - 1) * 1 + 1 + 1 + 1 - 4) with (n + (-1) * 2) by lia. rewrite Z.div_add by lia. pose proof (Z.div_pos n 2). lia.
Qed.
Lemma last_conv n : 0 <= n -> out_size n 0 0 4 1 1 1 = Z.max 0 (n - 3).
Proof.
  intros H. unfold out_size, dil. destruct (Z.eqb_spec n 0) as [->|N]; [reflexivity|]. change (if 4 =? 0 then 0 else (4 - 1) * 1 + 1) with 4. rewrite Z.div_1_r. lia.
Qed.
Lemma first_convt n : 0 < n -> out_size n (4 - 1 - 0) (4 - 1 - 0) 4 1 1 1 = n + 3.
Proof.
  intros H. unfold out_size, dil. destruct (Z.eqb_spec n 0) as [->|N]; [lia|]. change (if 4 =? 0 then 0 else (4 - 1) * 1 + 1) with 4. rewrite Z.div_1_r. lia.
Qed.
Lemma twice n : 0 < n -> out_size n (4 - 1 - 1) (4 - 1 - 1) 4 1 2 1 = 2 * n.
Proof.
  intros H. unfold out_size, dil. destruct (Z.eqb_spec n 0) as [->|N]; [lia|]. change (if 4 =? 0 then 0 else (4 - 1) * 1 + 1) with 4. rewrite Z.div_1_r. lia.
Qed.
(** The generator turns noise of shape (latent, h, w) into images of 16 (h + 3) by 16 (w + 3): 64 by 64 from 1 by 1, whatever [width]. *)
Theorem C128_generator : forall latent width channels c h w, 0 < h -> 0 < w ->
  net_shape (generator latent width channels) (c, h, w) = if c =? latent then Ok (channels, 16 * (h + 3), 16 * (w + 3)) else Err TypeError.
Proof.
  intros latent width channels c h w Hh Hw. unfold generator. cbn [net_shape layer_shape]. destruct (c =? latent); [|reflexivity].
  repeat (cbn [bind layer_shape]; rewrite ?Z.eqb_refl). rewrite !first_convt by lia. rewrite !(twice (_ + 3)) by lia. rewrite !(twice (2 * _)) by lia.
  assert (D : forall n, 2 * (2 * (2 * (2 * n))) = 16 * n) by (intros; lia). rewrite !D. reflexivity.
Qed.
(** The discriminator gives one number for images whose sizes are from 64 to 79, and nothing at all, without an error, for images with a smaller size. *)
Theorem C128_discriminator : forall width channels c h w, 0 <= h -> 0 <= w ->
  net_shape (discriminator width channels) (c, h, w) = (if c =? channels then Ok (1, Z.max 0 (h / 16 - 3), Z.max 0 (w / 16 - 3)) else Err TypeError) /\
  (net_shape (discriminator width channels) (channels, h, w) = Ok (1, 1, 1) <-> 64 <= h < 80 /\ 64 <= w < 80) /\
  (h < 64 -> exists w', net_shape (discriminator width channels) (channels, h, w) = Ok (1, 0, w')).
Proof.
  assert (E : forall width channels c h w, 0 <= h -> 0 <= w ->
    net_shape (discriminator width channels) (c, h, w) = (if c =? channels then Ok (1, Z.max 0 (h / 16 - 3), Z.max 0 (w / 16 - 3)) else Err TypeError)).
  { intros width channels c h w Hh Hw. unfold discriminator. cbn [net_shape layer_shape]. destruct (c =? channels); [|reflexivity].
    repeat (cbn [bind layer_shape]; rewrite ?Z.eqb_refl).
    assert (P : forall n, 0 <= n -> 0 <= n / 2) by (intros; apply Z.div_pos; lia).
    rewrite (half h), (half w) by lia. rewrite !(half (_ / 2)) by auto 10. rewrite !last_conv by auto 10. rewrite !Z.div_div by lia. reflexivity. }
  intros width channels c h w Hh Hw. split; [apply E; assumption|]. rewrite E, Z.eqb_refl by assumption.
  assert (B : forall n k, k * 16 <= n < k * 16 + 16 <-> n / 16 = k).
  { intros n k. split; [intros H; symmetry; apply (Z.div_unique n 16 k (n - 16 * k)); lia|intros <-]. pose proof (Z.div_mod n 16). pose proof (Z.mod_pos_bound n 16). lia. }
  split; [split|].
  - intros H. injection H as H1 H2. assert (A1 : h / 16 = 4) by lia. assert (A2 : w / 16 = 4) by lia. apply B in A1, A2. lia.
  - intros [H1 H2]. assert (A1 : h / 16 = 4) by (apply B; lia). assert (A2 : w / 16 = 4) by (apply B; lia). rewrite A1, A2. reflexivity.
  - intros H. exists (Z.max 0 (w / 16 - 3)). assert (h / 16 < 4) by (apply Z.div_lt_upper_bound; lia). rewrite Z.max_l by lia. reflexivity.
Qed.
Print Assumptions C128_generator.
Print Assumptions C128_discriminator.
(** So the discriminator takes what the generator makes, for any number of channels. *)
Example C128_shapes_ex : net_shape (generator 100 64 1) (100, 1, 1) = Ok (1, 64, 64) /\ net_shape (discriminator 64 1) (1, 64, 64) = Ok (1, 1, 1) /\ net_shape (discriminator 28 1) (1, 28, 28) = Ok (1, 0, 0).
Proof. repeat split. Qed.

(** ** Losses *)
Local Close Scope Z_scope.
Local Open Scope nat_scope.
Definition qsum (l : list Q) : Q := fold_right Qplus 0%Q l.
Definition qnat (n : nat) : Q := inject_Z (Z.of_nat n).
Lemma qnat_pos n : 0 < n -> ~ (qnat n == 0)%Q.
Proof. intros H E. unfold qnat, Qeq in E. cbn in E. lia. Qed.
Lemma qsum_app l l' : (qsum (l ++ l') == qsum l + qsum l')%Q.
Proof. induction l as [|x l IH]; [symmetry; apply Qplus_0_l|]. cbn [app qsum fold_right] in *. fold (qsum (l ++ l')) (qsum l) in *. rewrite IH. apply Qplus_assoc. Qed.
Lemma qsum_const {A} (v : Q) (l : list A) : (qsum (map (fun _ => v) l) == qnat (length l) * v)%Q.
Proof.
  induction l as [|x l IH]; [cbn; symmetry; apply Qmult_0_l|]. cbn [map qsum fold_right length]. fold (qsum (map (fun _ => v) l)). rewrite IH. unfold qnat. rewrite Nat2Z.inj_succ, <- Z.add_1_l, inject_Z_plus. ring.
Qed.
(** What is averaged: over all pairs of a prediction and a label, not over the predictions with their labels. *)
Theorem C128_loss_pairs : forall f b pred labels, 0 < b -> labels <> [] -> exists v,
  loss f b 1 1 1 pred labels = Ok (Some v) /\
  (v == qsum (map (fun i => qsum (map (fun y => f (pred i 0%nat 0%nat 0%nat) y) labels)) (seq 0 b)) / (qnat b * qnat (length labels)))%Q.
Proof.
  intros f b pred labels Hb HL. unfold loss, loss_entries. cbn [Nat.eqb]. rewrite Bool.orb_true_r. cbn [orb negb rmap bind].
  set (row := fun i => map (fun y => f (pred i 0%nat 0%nat 0%nat) y) labels).
  assert (E : forall i, flat_map (fun j => flat_map (fun k => map (fun l => f (pred i j k 0%nat) (nth (if Nat.eqb (length labels) 1 then 0%nat else l) labels 0%Q)) (seq 0 (length labels))) (seq 0 1)) (seq 0 1) = row i).
  { intros i. cbn [seq flat_map]. rewrite !app_nil_r. unfold row. destruct labels as [|y [|y2 ls]]; [congruence|reflexivity|]. cbn [length Nat.eqb].
    change (S (S (length ls))) with (length (y :: y2 :: ls)). generalize (y :: y2 :: ls). clear. intros l. rewrite <- (map_map (fun n => nth n l 0%Q) (fun q => f (pred i 0%nat 0%nat 0%nat) q)). f_equal.
    induction l as [|a l IH]; [reflexivity|]. cbn [length seq map nth]. f_equal. rewrite <- seq_shift, map_map. exact IH. }
  rewrite (flat_map_ext _ _ E).
  assert (Ls : forall l, length (flat_map row l) = length l * length labels).
  { induction l as [|i l IH]; [reflexivity|]. cbn [flat_map length Nat.mul]. rewrite app_length, IH. unfold row. rewrite map_length. reflexivity. }
  assert (Sm : forall l, (qsum (flat_map row l) == qsum (map (fun i => qsum (row i)) l))%Q).
  { induction l as [|i l IH]; [reflexivity|]. cbn [flat_map map qsum fold_right]. fold (qsum (map (fun i => qsum (row i)) l)). fold (qsum (row i ++ flat_map row l)). rewrite qsum_app, IH. reflexivity. }
  destruct (flat_map row (seq 0 b)) as [|e es] eqn:Ef.
  { exfalso. specialize (Ls (seq 0 b)). rewrite Ef, seq_length in Ls. destruct labels; [congruence|]. destruct b; [lia|]. cbn in Ls. lia. }
  unfold mean. eexists. split; [reflexivity|]. rewrite <- Ef. rewrite Ls, seq_length. fold (qsum (flat_map row (seq 0 b))). rewrite Sm. unfold qnat. rewrite Nat2Z.inj_mul, inject_Z_mult. reflexivity.
Qed.
Print Assumptions C128_loss_pairs.
(** The labels of the example are all equal: then it is the mean over the predictions, also if the batch is smaller than the labels. *)
Theorem C128_loss : forall f b n c pred, 0 < b -> 0 < n -> exists v, loss f b 1 1 1 pred (repeat c n) = Ok (Some v) /\
  (v == qsum (map (fun i => f (pred i 0%nat 0%nat 0%nat) c) (seq 0 b)) / qnat b)%Q.
Proof.
  intros f b n c pred Hb Hn. destruct (C128_loss_pairs f b pred (repeat c n) Hb) as (v & Hv & E); [destruct n; [lia|discriminate]|]. exists v. split; [exact Hv|]. rewrite E, repeat_length.
  assert (R : forall i, (qsum (map (fun y => f (pred i 0%nat 0%nat 0%nat) y) (repeat c n)) == qnat n * f (pred i 0%nat 0%nat 0%nat) c)%Q).
  { intros i. assert (M : map (fun y => f (pred i 0%nat 0%nat 0%nat) y) (repeat c n) = map (fun _ => f (pred i 0%nat 0%nat 0%nat) c) (repeat c n)).
    { apply map_ext_in. intros y Hy. apply repeat_spec in Hy. subst y. reflexivity. }
    rewrite M, qsum_const, repeat_length. reflexivity. }
  assert (S : forall l, (qsum (map (fun i => qsum (map (fun y => f (pred i 0%nat 0%nat 0%nat) y) (repeat c n))) l) == qnat n * qsum (map (fun i => f (pred i 0%nat 0%nat 0%nat) c) l))%Q).
  { induction l as [|i l IH]; [cbn [map qsum fold_right]; ring|]. assert (C : forall x xs, (qsum (x :: xs) == x + qsum xs)%Q) by reflexivity. cbn [map]. rewrite !C, IH, R. ring. }
  rewrite S. field. split; apply qnat_pos; assumption.
Qed.
Print Assumptions C128_loss.
(** With labels that differ it is not. *)
Theorem C128_loss_mixed_refuted : exists f pred labels v, loss f (length labels) 1 1 1 pred labels = Ok (Some v) /\
  ~ (v == qsum (map (fun i => f (pred i 0%nat 0%nat 0%nat) (nth i labels 0%Q)) (seq 0 (length labels))) / qnat (length labels))%Q.
Proof.
  exists (fun x y => (x - y) * (x - y))%Q, (fun i _ _ _ => qnat i), [0; 1]%Q. eexists. split; [reflexivity|]. vm_compute. discriminate.
Qed.
Print Assumptions C128_loss_mixed_refuted.
(** Images too small give no prediction: the loss then fails, unless there is at most one label (NaN). *)
Theorem C128_loss_empty : forall f b pred labels, loss f b 1 0 0 pred labels = if length labels =? 1 then Ok None else if length labels =? 0 then Ok None else Err ValueError.
Proof.
  intros f b pred labels. unfold loss, loss_entries. cbn [Nat.eqb orb]. assert (E : forall l, flat_map (fun _ : nat => flat_map (fun _ : nat => @nil Q) (seq 0 1)) l = []) by (induction l; [reflexivity|assumption]).
  destruct labels as [|y [|y2 ls]]; cbn [length Nat.eqb negb orb rmap bind seq flat_map]; try reflexivity; rewrite ?E; cbn [seq] in E; rewrite ?E; reflexivity.
Qed.
Print Assumptions C128_loss_empty.

(** Otherwise the labels must fit the last axis: as many, or one of both is one. *)
Theorem C128_loss_shapes : forall f b c h w pred labels,
  ((w = length labels \/ w = 1 \/ length labels = 1) -> exists l, loss_entries f b c h w pred labels = Ok l /\ length l = b * c * h * (if w =? 1 then length labels else w)) /\
  (~ (w = length labels \/ w = 1 \/ length labels = 1) -> loss f b c h w pred labels = Err ValueError).
Proof.
  intros f b c h w pred labels. unfold loss, loss_entries. split; intros H.
  - replace (negb _) with false by (symmetry; apply negb_false_iff; rewrite !orb_true_iff, !Nat.eqb_eq; tauto). eexists. split; [reflexivity|].
    assert (L : forall (g : nat -> list Q) k, (forall i, length (g i) = k) -> forall n s, length (flat_map g (seq s n)) = n * k). { intros g k Hg. induction n as [|n IH]; intros s; [reflexivity|]. cbn [seq flat_map]. rewrite app_length, Hg, IH. reflexivity. }
    rewrite (L _ (c * (h * (if w =? 1 then length labels else w)))); [rewrite !Nat.mul_assoc; reflexivity|]. intros i. apply L. intros j. apply L. intros k. rewrite map_length, seq_length. reflexivity.
  - replace (negb _) with true; [reflexivity|]. symmetry. apply negb_true_iff. rewrite <- not_true_iff_false, !orb_true_iff, !Nat.eqb_eq. tauto.
Qed.
Print Assumptions C128_loss_shapes.

(** ** Training *)
(** The [n]-th draw of noise. *)
Definition noise_key (key : path) (n : nat) : path := key ++ repeat 0 n ++ [1].
Definition step_gstate (key : path) (t : nat) : state := [(t, Noise (noise_key key (2 * t))); (t, Noise (noise_key key (2 * t + 1)))].
Definition step_dstate (key : path) (t : nat) : state :=
  [(t, Fake t (noise_key key (2 * t)) (2 * t + 1)); (t, Real t); (S t, Fake t (noise_key key (2 * t + 1)) (2 * t + 2))].
Lemma train_S s key : train (S s) key = train_step s (train s key).
Proof. unfold train. rewrite seq_S, fold_left_app. reflexivity. Qed.
Lemma flat_len {A} (f : nat -> list A) n : forall s, (forall t, length (f t) = n) -> length (flat_map f (seq 0 s)) = s * n.
Proof. intros s H. induction s as [|s IH]; [reflexivity|]. rewrite seq_S, flat_map_app, app_length, IH. cbn [flat_map Nat.add]. rewrite app_nil_r, H. lia. Qed.
Lemma flat_S {A} (f : nat -> list A) s : flat_map f (seq 0 (S s)) = flat_map f (seq 0 s) ++ f s.
Proof. rewrite seq_S, flat_map_app. cbn [flat_map Nat.add]. rewrite app_nil_r. reflexivity. Qed.
(** After any number of steps. The generator's statistics have seen two batches per step, both of them before its update; the discriminator's three: a fake
    and a real one before its update, and the fake one of the generator's step after it. Noise is never drawn twice from a key. *)
Theorem C128_training : forall steps key, let r := train steps key in
  gen r = steps /\ dis r = steps /\ gopt r = steps /\ dopt r = steps /\ key_ r = key ++ repeat 0 (2 * steps) /\
  gstate r = flat_map (step_gstate key) (seq 0 steps) /\ dstate r = flat_map (step_dstate key) (seq 0 steps) /\
  dlosses r = map (fun t => [((t, Fake t (noise_key key (2 * t)) (2 * t + 1), 3 * t + 1), false); ((t, Real t, 3 * t + 2), true)]) (seq 0 steps) /\
  glosses r = map (fun t => [((S t, Fake t (noise_key key (2 * t + 1)) (2 * t + 2), 3 * t + 3), true)]) (seq 0 steps) /\
  NoDup (map (noise_key key) (seq 0 (2 * steps))).
Proof.
  intros steps key r. assert (ND : NoDup (map (noise_key key) (seq 0 (2 * steps)))).
  { apply Injective_map_NoDup; [|apply seq_NoDup]. intros a b H. unfold noise_key in H. apply app_inv_head in H. apply (f_equal (@length nat)) in H. rewrite !app_length, !repeat_length in H. cbn in H. lia. }
  subst r. induction steps as [|s IH]; [cbn [train seq fold_left]; cbn [gen dis gopt dopt key_ gstate dstate glosses dlosses Nat.mul Nat.add repeat flat_map map]; rewrite app_nil_r; repeat split; auto|].
  assert (ND' : NoDup (map (noise_key key) (seq 0 (2 * s)))).
  { replace (2 * S s) with (2 * s + 2) in ND by lia. rewrite seq_app, map_app in ND. apply NoDup_rev in ND. rewrite rev_app_distr in ND. clear - ND.
    assert (X : forall (a b : list path), NoDup (a ++ b) -> NoDup b) by (induction a as [|x a IHa]; intros b H; [exact H|]; inversion H; auto). apply X in ND. apply NoDup_rev in ND. rewrite rev_involutive in ND. exact ND. }
  specialize (IH ND'). destruct IH as (E1 & E2 & E3 & E4 & E5 & E6 & E7 & E8 & E9 & _). rewrite train_S. unfold train_step. rewrite E1, E2, E3, E4, E5, E6, E7, E8, E9.
  cbn [step_discriminator compute_grads_discriminator step_generator compute_grads_generator split2 call_generator call_discriminator].
  cbn [gen dis gopt dopt key_ gstate dstate glosses dlosses].
  assert (R2 : forall n, repeat 0 n ++ [0] = repeat 0 (S n)) by (intros n; change [0] with (repeat 0 1); rewrite <- repeat_app; f_equal; lia).
  assert (K : (key ++ repeat 0 (2 * s)) ++ [0] = key ++ repeat 0 (2 * s + 1)) by (rewrite <- app_assoc, R2; do 2 f_equal; lia).
  assert (K2 : ((key ++ repeat 0 (2 * s)) ++ [0]) ++ [0] = key ++ repeat 0 (2 * S s)) by (rewrite K, <- app_assoc, R2; do 2 f_equal; lia).
  assert (N1 : (key ++ repeat 0 (2 * s)) ++ [1] = noise_key key (2 * s)) by (unfold noise_key; rewrite <- app_assoc; reflexivity).
  assert (N2 : ((key ++ repeat 0 (2 * s)) ++ [0]) ++ [1] = noise_key key (2 * s + 1)) by (rewrite K; unfold noise_key; rewrite <- app_assoc; reflexivity).
  rewrite K2, N2, N1. rewrite !app_length. rewrite (flat_len (step_gstate key) 2) by reflexivity. rewrite (flat_len (step_dstate key) 3) by reflexivity. cbn [length].
  replace (S (s * 2)) with (2 * s + 1) by lia. replace (S (s * 2 + 1)) with (2 * s + 2) by lia.
  replace (S (s * 3)) with (3 * s + 1) by lia. replace (S (s * 3 + 1)) with (3 * s + 2) by lia. replace (S (s * 3 + 1 + 1)) with (3 * s + 3) by lia.
  do 5 (split; [reflexivity|]). rewrite !flat_S, !seq_S, !map_app. cbn [map Nat.add]. split; [rewrite <- app_assoc; reflexivity|]. split; [rewrite <- !app_assoc; reflexivity|].
  split; [reflexivity|]. split; [reflexivity|exact ND].
Qed.
Print Assumptions C128_training.
Example C128_training_ex : dstate (train 1 [7]) = [(0, Fake 0 [7; 1] 1); (0, Real 0); (1, Fake 0 [7; 0; 1] 2)] /\ glosses (train 2 []) =
  [[((1, Fake 0 [0; 1] 2, 3), true)]; [((2, Fake 1 [0; 0; 0; 1] 4, 6), true)]].
Proof. split; reflexivity. Qed.
