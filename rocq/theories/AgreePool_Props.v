(** C112 (third part): adaptive pooling into equal blocks is pooling; pooling with windows of size one. Model: PoolNd_Model. *)
From Coq Require Import Lia Lra Permutation.
From Verif Require Import Pool_Proofs Pool_Props PoolNd_Model PoolNd_Props.
Local Open Scope nat_scope.
Local Open Scope list_scope.

(** The axis of a pooling layer whose windows are the [t] equal parts of an axis of size [n]. *)
Definition equal_axis (n t : nat) : axis := {| an := Z.of_nat n; al := 0; ar := 0; ak := Z.of_nat (n / t); as_ := Z.of_nat (n / t) |}.
Definition equal_axes (ns ts : list nat) : list axis := map (fun p => equal_axis (fst p) (snd p)) (List.combine ns ts).
(** The sizes are multiples of the targets. *)
Definition multiples (ns ts : list nat) : Prop := Forall2 (fun n t => exists q, 0 < q /\ 0 < t /\ n = t * q) ns ts.

Lemma filter_all {A} (f : A -> bool) l : (forall a, In a l -> f a = true) -> List.filter f l = l.
Proof. induction l as [|a l IH]; intros H; [reflexivity|]. cbn [List.filter]. rewrite H by (left; reflexivity). rewrite IH by (intros; apply H; right; assumption). reflexivity. Qed.
Lemma filter_none {A} (f : A -> bool) l : (forall a, In a l -> f a = false) -> List.filter f l = [].
Proof. induction l as [|a l IH]; intros H; [reflexivity|]. cbn [List.filter]. rewrite H by (left; reflexivity). apply IH. intros; apply H; right; assumption. Qed.
Lemma filter_range (f : nat -> bool) n a l : a + l <= n -> (forall i, f i = true <-> a <= i < a + l) -> List.filter f (seq 0 n) = seq a l.
Proof.
  intros H Hf. replace n with (a + (l + (n - a - l))) by lia. rewrite !seq_app, !filter_app. cbn [Nat.add].
  rewrite (filter_none f (seq 0 a)), (filter_all f (seq a l)), (filter_none f (seq (a + l) _)); [rewrite app_nil_r; reflexivity| | |].
  - intros i Hi. apply in_seq in Hi. destruct (f i) eqn:E; [apply Hf in E; lia|reflexivity].
  - intros i Hi. apply in_seq in Hi. apply Hf. lia.
  - intros i Hi. apply in_seq in Hi. destruct (f i) eqn:E; [apply Hf in E; lia|reflexivity].
Qed.
Lemma window_part n t q k : 0 < q -> 0 < t -> n = t * q -> k < t -> window_of (equal_axis n t) k = part n t k /\ part n t k = seq (k * q) q.
Proof.
  intros Hq Ht -> Hk. assert (E : t * q / t = q) by (rewrite Nat.mul_comm; apply Nat.div_mul; lia). assert (M : (t * q) mod t = 0) by (rewrite Nat.mul_comm; apply Nat.mod_mul; lia).
  assert (P : part (t * q) t k = seq (k * q) q) by (unfold part; rewrite E, M, Nat.min_r by lia; cbn [Nat.ltb Nat.leb]; f_equal; lia).
  split; [|exact P]. rewrite P. unfold window_of, equal_axis. cbn [an al as_ ak]. rewrite E, Nat2Z.id. apply filter_range.
  - replace (k * q + q) with (S k * q) by lia. apply Nat.mul_le_mono_r. lia.
  - intros i. rewrite andb_true_iff, Z.leb_le, Z.ltb_lt. lia.
Qed.
Lemma windows_parts ns ts ks : multiples ns ts -> Forall2 lt ks ts ->
  map (fun p => window_of (fst p) (snd p)) (List.combine (equal_axes ns ts) ks) = parts ns ts ks.
Proof.
  intros H. revert ks. induction H as [|n t ns ts (q & Hq & Ht & Hn) H IH]; intros ks HK; inversion HK; subst; [reflexivity|].
  unfold equal_axes, parts in *. cbn [List.combine map fst snd]. f_equal; [apply (window_part _ _ q); auto|]. apply IH. assumption.
Qed.
Lemma flat_map_swap {A B C} (f : A -> B -> C) l m : Permutation (flat_map (fun a => map (f a) m) l) (flat_map (fun b => map (fun a => f a b) l) m).
Proof.
  induction l as [|a l IH]; cbn [flat_map map]; [induction m; [constructor|assumption]|]. rewrite IH. clear IH.
  induction m as [|b m IH]; [constructor|]. cbn [map flat_map app]. constructor. rewrite app_assoc, (Permutation_app_comm (map (f a) m)), <- app_assoc. apply Permutation_app_head. exact IH.
Qed.
Lemma flat_map_perm {A B} (f : A -> list B) l l' : Permutation l l' -> Permutation (flat_map f l) (flat_map f l').
Proof. apply Permutation_flat_map. Qed.
Lemma choices_block (ls : list (list nat)) : Permutation (choices ls) (block ls).
Proof.
  induction ls as [|l ls IH]; [constructor; constructor|]. cbn [choices block]. rewrite (flat_map_swap cons l (choices ls)). apply Permutation_flat_map. exact IH.
Qed.
Lemma Rsum_perm l l' : Permutation l l' -> Rsum l = Rsum l'.
Proof. unfold Rsum. induction 1; cbn [fold_right]; lra. Qed.
Lemma multiples_ok ns ts : multiples ns ts -> Forall ok_axis (equal_axes ns ts) /\ forallb (accepted false) (equal_axes ns ts) = true /\ sizes (equal_axes ns ts) = ns /\
  map (fun a => Z.to_nat (out_size false a)) (equal_axes ns ts) = ts /\ length ns = length ts /\ length (equal_axes ns ts) = length ts /\
  (forall j n t, nth_error ns j = Some n -> nth_error ts j = Some t -> 0 < t <= n).
Proof.
  induction 1 as [|n t ns ts (q & Hq & Ht & Hn) H (I1 & I2 & I3 & I4 & I5 & I6 & I7)].
  - split; [constructor|]. repeat (split; [reflexivity|]). intros [|j]; discriminate.
  - unfold equal_axes in *. cbn [List.combine map fst snd]. subst n. assert (E : t * q / t = q) by (rewrite Nat.mul_comm; apply Nat.div_mul; lia).
    split; [constructor; [unfold ok_axis, equal_axis; cbn [an ak as_]; rewrite E; lia|exact I1]|]. split.
    { cbn [forallb]. rewrite I2, andb_true_r. unfold accepted, extra, equal_axis. cbn [al ar ak andb]. apply Z.leb_le. lia. }
    split; [cbn [sizes map equal_axis an]; fold (sizes (map (fun p => equal_axis (fst p) (snd p)) (List.combine ns ts))); rewrite I3, Nat2Z.id; reflexivity|].
    split. { cbn [map]. rewrite I4. f_equal. unfold out_size, room, equal_axis. cbn [an al ar ak as_]. rewrite E.
      replace (Z.of_nat (t * q) + 0 + 0 - Z.of_nat q)%Z with ((Z.of_nat t - 1) * Z.of_nat q)%Z by lia. rewrite Z.div_mul by lia. lia. }
    split; [cbn [length]; congruence|]. split; [cbn [length]; rewrite I6; reflexivity|].
    intros [|j] n' t' Hn Ht'; cbn [nth_error] in *; [injection Hn as <-; injection Ht' as <-; split; [exact Ht|]; replace t with (t * 1) at 1 by lia; apply Nat.mul_le_mono_l; lia|exact (I7 j n' t' Hn Ht')].
Qed.
Lemma count_block ns ts ks : multiples ns ts -> Forall2 lt ks ts -> IZR (fold_right Z.mul 1%Z (map ak (equal_axes ns ts))) = INR (length (block (parts ns ts ks))).
Proof.
  intros H HK. rewrite INR_IZR_INZ. f_equal. rewrite <- (Permutation_length (choices_block _)), choices_length.
  revert ks HK. induction H as [|n t ns ts (q & Hq & Ht & Hn) H IH]; intros ks HK; inversion HK; subst; [reflexivity|].
  unfold equal_axes, parts in *. cbn [List.combine map fold_right fst snd]. rewrite Nat2Z.inj_mul. rewrite <- (IH l) by assumption. f_equal.
  destruct (window_part (t * q) t q x Hq Ht eq_refl ltac:(assumption)) as [_ ->]. rewrite seq_length. cbn [equal_axis ak]. f_equal. rewrite Nat.mul_comm. apply Nat.div_mul. lia.
Qed.

(** If the targets divide the sizes, adaptive pooling is pooling with kernel size and stride [n // t], without padding. *)
Theorem C112_adaptive_avg : forall c ns ts (x : list nat -> R), multiples ns ts ->
  exists y z, adaptive_avg_pool ts (c :: ns, x) = Ok y /\ avg_pool (pool_of false (equal_axes ns ts)) (c :: ns, x) = Ok z /\
    fst y = c :: ts /\ fst z = c :: ts /\ forall ch ks, ch < c -> Forall2 lt ks ts -> snd y (ch :: ks) = snd z (ch :: ks).
Proof.
  intros c ns ts x H. destruct (multiples_ok ns ts H) as (M1 & M2 & M3 & M4 & M5 & M6 & M7).
  destruct (C88_adaptive_avg c ns ts x M5 M7) as (y & Hy & Sy & Vy). destruct (C88_avg false c (equal_axes ns ts) x M1 M2) as (z & Hz & Sz & Vz).
  rewrite M3 in Hz. rewrite M4 in Sz. exists y, z. repeat (split; [assumption|]). intros ch ks Hc HK.
  assert (Lk : length ks = length ts) by (clear - HK; induction HK; cbn; congruence).
  rewrite Vz by (auto; congruence). destruct (Vy ch ks Lk) as [_ ->].
  { clear - HK. induction HK as [|k t ks ts Hk HK IH]; intros [|j] k' t' E1 E2; cbn [nth_error] in *; try discriminate; [congruence|exact (IH j k' t' E1 E2)]. }
  rewrite (count_block ns ts ks H HK). unfold window_at. rewrite windows_parts by assumption. f_equal. apply Rsum_perm, Permutation_map. symmetry. apply choices_block.
Qed.
Print Assumptions C112_adaptive_avg.
Theorem C112_adaptive_max : forall c ns ts (x : list nat -> R), multiples ns ts ->
  exists y z, adaptive_max_pool ts (c :: ns, x) = Ok y /\ max_pool (pool_of false (equal_axes ns ts)) (c :: ns, fun idx => Fin (x idx)) = Ok z /\
    fst y = c :: ts /\ fst z = c :: ts /\ forall ch ks, ch < c -> Forall2 lt ks ts -> snd z (ch :: ks) = Fin (snd y (ch :: ks)).
Proof.
  intros c ns ts x H. destruct (multiples_ok ns ts H) as (M1 & M2 & M3 & M4 & M5 & M6 & M7).
  destruct (C88_adaptive_max c ns ts x M5 M7) as (y & Hy & Sy & Vy). destruct (C88_max false c (equal_axes ns ts) x M1 M2) as (z & Hz & Sz & Vz).
  rewrite M3 in Hz. rewrite M4 in Sz. exists y, z. repeat (split; [assumption|]). intros ch ks Hc HK.
  assert (Lk : length ks = length ts) by (clear - HK; induction HK; cbn; congruence).
  destruct (Vy ch ks Lk) as (q & Q1 & Q2 & Q3).
  { clear - HK. induction HK as [|k t ks ts Hk HK IH]; intros [|j] k' t' E1 E2; cbn [nth_error] in *; try discriminate; [congruence|exact (IH j k' t' E1 E2)]. }
  destruct (Vz ch ks Hc ltac:(congruence)) as [_ V2]. unfold window_at in V2. rewrite windows_parts in V2 by assumption.
  assert (P : forall q, In q (choices (parts ns ts ks)) <-> In q (block (parts ns ts ks))) by (intros q'; split; apply Permutation_in; [|symmetry]; apply choices_block).
  destruct V2 as (q' & W1 & W2 & W3); [intros E; apply P in Q1; rewrite E in Q1; destruct Q1|].
  rewrite W2, Q2. f_equal. apply Rle_antisym; [apply Q3, P, W1|apply W3, P, Q1].
Qed.
Print Assumptions C112_adaptive_max.

(** Windows of one place each and stride one: nothing changes. *)
Definition single (a : axis) : Prop := (0 <= an a /\ al a = 0 /\ ar a = 0 /\ ak a = 1 /\ as_ a = 1)%Z.
Lemma single_window axes js : Forall single axes -> Forall2 (fun j a => Z.of_nat j < an a)%Z js axes -> window_at axes js = [js].
Proof.
  intros HS HJ. unfold window_at. revert HS. induction HJ as [|j a js axes Hj HJ IH]; intros HS; [reflexivity|]. inversion HS as [|? ? (S1 & S2 & S3 & S4 & S5) HS']; subst.
  cbn [List.combine map choices fst snd]. rewrite (IH HS'). unfold window_of. rewrite S2, S4, S5. rewrite (filter_range _ _ j 1); [reflexivity|lia|]. intros i. rewrite andb_true_iff, Z.leb_le, Z.ltb_lt. lia.
Qed.
Theorem C112_pool_identity : forall ceil c axes (x : list nat -> R), Forall single axes ->
  exists y z, avg_pool (pool_of ceil axes) (c :: sizes axes, x) = Ok y /\ max_pool (pool_of ceil axes) (c :: sizes axes, fun idx => Fin (x idx)) = Ok z /\
    fst y = c :: sizes axes /\ fst z = c :: sizes axes /\
    forall ch js, ch < c -> Forall2 lt js (sizes axes) -> snd y (ch :: js) = x (ch :: js) /\ snd z (ch :: js) = Fin (x (ch :: js)).
Proof.
  intros ceil c axes x H.
  assert (Hok : Forall ok_axis axes) by (eapply Forall_impl; [|exact H]; intros a (S1 & S2 & S3 & S4 & S5); unfold ok_axis; lia).
  assert (HX : forall a, single a -> extra ceil a = 0%Z) by (intros a (S1 & S2 & S3 & S4 & S5); unfold extra; rewrite S5, Z.mod_1_r; cbn; rewrite andb_false_r; reflexivity).
  assert (Hacc : forallb (accepted ceil) axes = true) by (apply forallb_forall; intros a Ha; rewrite Forall_forall in H; specialize (H a Ha); unfold accepted; rewrite (HX a H); destruct H as (S1 & S2 & S3 & S4 & S5); apply Z.leb_le; lia).
  assert (HS : map (fun a => Z.to_nat (out_size ceil a)) axes = sizes axes).
  { apply map_ext_in. intros a Ha. rewrite Forall_forall in H. destruct (H a Ha) as (S1 & S2 & S3 & S4 & S5). unfold out_size, cdiv, room. rewrite S5, !Z.div_1_r. destruct ceil; f_equal; lia. }
  destruct (C88_avg ceil c axes x Hok Hacc) as (y & Hy & Sy & Vy). destruct (C88_max ceil c axes x Hok Hacc) as (z & Hz & Sz & Vz).
  rewrite HS in Sy, Sz. exists y, z. repeat (split; [assumption|]). intros ch js Hc HJ.
  assert (HJ' : Forall2 (fun j a => Z.of_nat j < an a)%Z js axes).
  { clear - HJ. revert js HJ. unfold sizes. induction axes as [|a axes IH]; intros js HJ; inversion HJ; subst; constructor; [lia|apply IH; assumption]. }
  assert (Lj : length js = length axes) by (clear - HJ'; induction HJ'; cbn; congruence).
  rewrite (Vy ch js Hc Lj). destruct (Vz ch js Hc Lj) as [_ V2]. rewrite (single_window axes js H HJ') in *. split.
  - cbn [map]. assert (E : fold_right Z.mul 1%Z (map ak axes) = 1%Z) by (clear - H; induction H as [|a axes (_ & _ & _ & E & _) _ IH]; [reflexivity|]; cbn [map fold_right]; rewrite E, IH; reflexivity).
    rewrite E. unfold Rsum. cbn [fold_right]. field.
  - destruct V2 as (q & [<-|[]] & V2 & _); [discriminate|exact V2].
Qed.
Print Assumptions C112_pool_identity.

(** ** Examples *)
Example C112_ex_adaptive : multiples [4; 6] [2; 3] /\ equal_axes [4; 6] [2; 3] =
  [{| an := 4; al := 0; ar := 0; ak := 2; as_ := 2 |}; {| an := 6; al := 0; ar := 0; ak := 2; as_ := 2 |}]%Z /\
  parts [4; 6] [2; 3] [1; 2] = [[2; 3]; [4; 5]].
Proof. split; [constructor; [exists 2; lia|constructor; [exists 2; lia|constructor]]|]. split; reflexivity. Qed.
(** Not so otherwise, for two parts of three places: with kernel size 1 the windows differ, with kernel size 2 there is only one. *)
Example C112_ex_unequal : window_of {| an := 3; al := 0; ar := 0; ak := 1; as_ := 1 |} 0 <> part 3 2 0 /\
  out_size false {| an := 3; al := 0; ar := 0; ak := 2; as_ := 2 |} = 1%Z.
Proof. split; [vm_compute; discriminate|reflexivity]. Qed.
Example C112_ex_single : Forall single [{| an := 4; al := 0; ar := 0; ak := 1; as_ := 1 |}]%Z.
Proof. repeat constructor; cbn; lia. Qed.
