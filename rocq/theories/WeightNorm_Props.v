(** C72 (WeightNorm) and C73 (SpectralNorm). *)
From Coq Require Import Lia Lra Psatz FunctionalExtensionality.
From Verif Require Norm_Props.
From Verif Require Import WeightNorm_Model.
Local Open Scope R_scope.
Local Open Scope list_scope.
Notation Sum := Norm_Props.Sum.
Notation Sum_S := Norm_Props.Sum_S.
Notation Sum_ext := Norm_Props.Sum_ext.

(** ** Sums *)
Lemma sum_Sum : forall n f, sum n f = Sum n f.
Proof. induction n; intros f; [reflexivity|]. cbn [sum]. rewrite Sum_S. now rewrite IHn. Qed.
Lemma Sum_0 : forall n f, (forall i, (i < n)%nat -> f i = 0) -> Sum n f = 0.
Proof. induction n; intros f H; [reflexivity|]. rewrite Sum_S, IHn, (H n) by (auto with arith). ring. Qed.
Lemma Sum_add : forall a b f, Sum (a + b) f = Sum a f + Sum b (fun i => f (a + i)%nat).
Proof.
  intros a b f. induction b as [|b IH]; [rewrite Nat.add_0_r; unfold Sum at 3; cbn; ring|].
  rewrite Nat.add_succ_r, !Sum_S, IH. ring.
Qed.
Lemma Sum_mul : forall a b f, Sum (a * b) f = Sum a (fun i => Sum b (fun j => f (i * b + j)%nat)).
Proof.
  induction a as [|a IH]; intros b f; [reflexivity|]. rewrite Sum_S, <- IH. cbn [Nat.mul]. rewrite Nat.add_comm. apply Sum_add.
Qed.
Lemma Sum_pick : forall n j f, (j < n)%nat -> Sum n (fun i => if Nat.eqb i j then f i else 0) = f j.
Proof.
  induction n as [|n IH]; intros j f H; [lia|]. rewrite Sum_S. destruct (Nat.eqb_spec n j) as [-> |N].
  - rewrite Sum_0; [ring|]. intros i Hi. destruct (Nat.eqb_spec i j); [lia|reflexivity].
  - rewrite IH by lia. ring.
Qed.
Lemma Sum_zero_all : forall n f, (forall i, (i < n)%nat -> 0 <= f i) -> Sum n f = 0 -> forall i, (i < n)%nat -> f i = 0.
Proof.
  induction n as [|n IH]; intros f H E i Hi; [lia|]. rewrite Sum_S in E.
  assert (0 <= Sum n f) by (apply Norm_Props.Sum_pos; intros; apply H; lia). assert (0 <= f n) by (apply H; lia).
  destruct (Nat.eq_dec i n) as [-> |]; [lra|]. apply IH; [intros; apply H; lia|lra|lia].
Qed.

(** ** WeightNorm *)
(** Where the slices of an array are: with [P], [n], [Q] the numbers of positions before, along and after the axis, entry
    ([p], [q]) of slice [j] is at position [(p * n + j) * Q + q]. Without an axis there is one slice. *)
Inductive axis_at : list nat -> option Z -> nat -> nat -> nat -> Prop :=
| whole : forall s, axis_at s None 1 1 (fold_right Nat.mul 1%nat s)
| along : forall pre n post a, a = Z.of_nat (length pre) \/ a = (- Z.of_nat (S (length post)))%Z ->
    axis_at (pre ++ n :: post) (Some a) (fold_right Nat.mul 1%nat pre) n (fold_right Nat.mul 1%nat post).
(** The 2-norm of slice [j]. *)
Definition slice_norm (P n Q : nat) (v : nat -> R) (j : nat) : R :=
  sqrt (Sum P (fun p => Sum Q (fun q => (v ((p * n + j) * Q + q)%nat) ^ 2))).
(** Arrays with the same entries are the same. *)
Definition extensional {Ly X Y} (put : Ly -> tensor -> Ly) (run : Ly -> X -> res Y) : Prop :=
  forall l s f g x, (forall k, (k < fold_right Nat.mul 1 s)%nat -> f k = g k) -> run (put l {| tshape := s; tval := f |}) x = run (put l {| tshape := s; tval := g |}) x.

Lemma size_app : forall a b, size (a ++ b) = (size a * size b)%nat.
Proof.
  induction a as [|x a IH]; intros b; [cbn [app]; change (size []) with 1%nat; ring|]. change (size ((x :: a) ++ b)) with (x * size (a ++ b))%nat. rewrite IH.
  change (size (x :: a)) with (x * size a)%nat. ring.
Qed.
Lemma axis_size : forall s axis P n Q, axis_at s axis P n Q -> size s = (P * n * Q)%nat.
Proof.
  intros s axis P n Q H. destruct H as [s|pre n post a Ha]; [unfold size; lia|]. rewrite size_app. unfold size. cbn [fold_right]. ring.
Qed.
Lemma slice_pos : forall s axis P n Q, axis_at s axis P n Q -> exists N sl, slices s axis = Ok (N, sl) /\ N = n /\
  forall p j q, (j < n)%nat -> (q < Q)%nat -> sl ((p * n + j) * Q + q)%nat = j.
Proof.
  intros s axis P n Q H. destruct H as [s|pre n post a Ha].
  - do 2 eexists. split; [reflexivity|]. split; [reflexivity|]. intros. lia.
  - assert (E : canonical_axis (length (pre ++ n :: post)) a = Ok (length pre)).
    { unfold canonical_axis. rewrite app_length. cbn [length]. destruct Ha as [-> | ->].
      - destruct (Z.ltb_spec (Z.of_nat (length pre)) 0); [lia|].
        destruct (Z.leb_spec 0 (Z.of_nat (length pre))); [|lia]. destruct (Z.ltb_spec (Z.of_nat (length pre)) (Z.of_nat (length pre + S (length post)))); [|lia].
        cbn. now rewrite Nat2Z.id.
      - destruct (Z.ltb_spec (- Z.of_nat (S (length post))) 0); [|lia].
        replace (- Z.of_nat (S (length post)) + Z.of_nat (length pre + S (length post)))%Z with (Z.of_nat (length pre)) by lia.
        destruct (Z.leb_spec 0 (Z.of_nat (length pre))); [|lia]. destruct (Z.ltb_spec (Z.of_nat (length pre)) (Z.of_nat (length pre + S (length post)))); [|lia].
        cbn. now rewrite Nat2Z.id. }
    unfold slices. rewrite E. cbn [bind]. do 2 eexists. split; [reflexivity|].
    assert (En : nth (length pre) (pre ++ n :: post) 0%nat = n) by (rewrite app_nth2, Nat.sub_diag by lia; reflexivity).
    assert (Es : skipn (S (length pre)) (pre ++ n :: post) = post).
    { clear. induction pre as [|x pre IH]; [reflexivity|]. exact IH. }
    split; [exact En|]. intros p j q Hj Hq. rewrite En, Es. unfold size. rewrite (Nat.add_comm _ q), Nat.div_add by lia.
    rewrite (Nat.div_small q) by exact Hq. cbn [Nat.add]. rewrite Nat.add_comm, Nat.mod_add by lia. now apply Nat.mod_small.
Qed.
Lemma find_pos : forall P n Q k, (k < P * n * Q)%nat -> exists p j q, (p < P)%nat /\ (j < n)%nat /\ (q < Q)%nat /\ k = ((p * n + j) * Q + q)%nat.
Proof.
  intros P n Q k H. assert (n <> 0%nat /\ Q <> 0%nat) as [Hn HQ] by (split; intros ->; rewrite ?Nat.mul_0_r in H; cbn in H; lia).
  exists (k / Q / n)%nat, ((k / Q) mod n)%nat, (k mod Q)%nat.
  split; [apply Nat.div_lt_upper_bound; [exact Hn|]; apply Nat.div_lt_upper_bound; [exact HQ|]; lia|].
  split; [now apply Nat.mod_upper_bound|]. split; [now apply Nat.mod_upper_bound|].
  pose proof (Nat.div_mod k Q HQ). pose proof (Nat.div_mod (k / Q) n Hn).
  rewrite (Nat.mul_comm (k / Q / n) n). rewrite <- H1. lia.
Qed.
Lemma pos_lt : forall P n Q p j q, (p < P)%nat -> (j < n)%nat -> (q < Q)%nat -> ((p * n + j) * Q + q < P * n * Q)%nat.
Proof.
  intros P n Q p j q Hp Hj Hq. assert (S (p * n + j) <= P * n)%nat by (pose proof (Nat.mul_le_mono_r (S p) P n Hp); cbn in *; lia).
  pose proof (Nat.mul_le_mono_r _ _ Q H). cbn [Nat.mul] in *. lia.
Qed.
Lemma norm_slice : forall s axis P n Q v, axis_at s axis P n Q -> exists N, norm_except_axis {| tshape := s; tval := v |} axis = Ok N /\
  forall j, (j < n)%nat -> N j = slice_norm P n Q v j.
Proof.
  intros s axis P n Q v H. destruct (slice_pos _ _ _ _ _ H) as (N & sl & E & EN & Esl).
  unfold norm_except_axis. cbn [tshape tval]. rewrite E. cbn [bind]. eexists. split; [reflexivity|]. intros j Hj. unfold slice_norm. f_equal.
  rewrite sum_Sum, (axis_size _ _ _ _ _ H), Sum_mul, Sum_mul. apply Sum_ext. intros p Hp.
  transitivity (Sum n (fun j' => if Nat.eqb j' j then Sum Q (fun q => v ((p * n + j') * Q + q)%nat ^ 2) else 0)).
  - apply Sum_ext. intros j' Hj'. destruct (Nat.eqb_spec j' j) as [-> |Hne].
    + apply Sum_ext. intros q Hq. rewrite Esl by assumption. rewrite Nat.eqb_refl. ring.
    + apply Sum_0. intros q Hq. rewrite Esl by assumption. destruct (Nat.eqb_spec j' j); [contradiction|reflexivity].
  - now apply (Sum_pick n j (fun j' => Sum Q (fun q => v ((p * n + j') * Q + q)%nat ^ 2))).
Qed.
Lemma all_numbers_iff : forall n f, all_numbers n f = true <-> forall k, (k < n)%nat -> f k <> None.
Proof.
  induction n as [|n IH]; intros f; cbn; [split; [intros; lia|auto]|]. rewrite andb_true_iff, IH. split.
  - intros [H1 H2] k Hk. destruct (Nat.eq_dec k n) as [-> |]; [destruct (f n); congruence|apply H1; lia].
  - intros H. split; [intros k Hk; apply H; lia|]. specialize (H n ltac:(lia)). destruct (f n); congruence.
Qed.

Section Weight.
  Variables (Ly X Y : Type) (get : Ly -> tensor) (put : Ly -> tensor -> Ly) (run : Ly -> X -> res Y).
  Hypothesis run_ext : extensional put run.
  Notation make := (make_weight_norm Ly get).
  Notation call := (call_weight_norm Ly X Y get put run).

  (** C72. The layer is called with [g * v / |v|] (norms of slices along the axis) in place of its weight [v]. *)
  Theorem C72_call : forall m x P n Q w, axis_at (tshape (get (wlayer Ly m))) (waxis Ly m) P n Q ->
    let v := tval (get (wlayer Ly m)) in
    (forall j, (j < n)%nat -> slice_norm P n Q v j <> 0) ->
    (forall p j q, (p < P)%nat -> (j < n)%nat -> (q < Q)%nat ->
       w ((p * n + j) * Q + q)%nat = wg Ly m j * v ((p * n + j) * Q + q)%nat / slice_norm P n Q v j) ->
    call m x = (y <- run (put (wlayer Ly m) {| tshape := tshape (get (wlayer Ly m)); tval := w |}) x ;; Ok (Some y)).
  Proof.
    intros m x P n Q w Ha v Hv Hw. unfold call_weight_norm. cbv zeta.
    destruct (slice_pos _ _ _ _ _ Ha) as (N & sl & E & EN & Esl). rewrite E. cbn [bind].
    destruct (norm_slice _ _ _ _ _ v Ha) as (nf & Hn & Hnf).
    replace (norm_except_axis (get (wlayer Ly m)) (waxis Ly m)) with (Ok nf) by (rewrite <- Hn; unfold v; now destruct (get (wlayer Ly m))).
    cbn [bind]. unfold run_with.
    assert (Hk : forall k, (k < size (tshape (get (wlayer Ly m))))%nat ->
              div (tval (get (wlayer Ly m)) k * wg Ly m (sl k)) (nf (sl k)) = Some (w k)).
    { intros k Hk. rewrite (axis_size _ _ _ _ _ Ha) in Hk. apply find_pos in Hk as (p & j & q & Hp & Hj & Hq & ->).
      rewrite Esl by assumption. rewrite Hnf by assumption. unfold div. destruct (Req_EM_T _ 0) as [E0|_]; [now apply Hv in E0|].
      rewrite Hw by assumption. fold v. f_equal. f_equal. ring. }
    replace (all_numbers _ _) with true.
    - rewrite (run_ext _ _ _ w); [reflexivity|]. intros k Hk'. rewrite Hk by exact Hk'. reflexivity.
    - symmetry. apply all_numbers_iff. intros k Hk'. rewrite Hk by exact Hk'. discriminate.
  Qed.
  (** A freshly wrapped layer computes what the layer computes. *)
  Hypothesis put_get : forall l x, run (put l (get l)) x = run l x.
  Theorem C72_init : forall l axis m x P n Q, axis_at (tshape (get l)) axis P n Q ->
    (forall j, (j < n)%nat -> slice_norm P n Q (tval (get l)) j <> 0) ->
    make l axis = Ok m -> call m x = (y <- run l x ;; Ok (Some y)).
  Proof.
    intros l axis m x P n Q Ha Hv Hm. unfold make_weight_norm in Hm.
    destruct (norm_slice _ _ _ _ _ (tval (get l)) Ha) as (nf & Hn & Hnf).
    replace {| tshape := tshape (get l); tval := tval (get l) |} with (get l) in Hn by now destruct (get l).
    rewrite Hn in Hm. cbn [bind] in Hm. injection Hm as <-.
    rewrite (C72_call {| wlayer := l; wg := nf; waxis := axis |} x P n Q (tval (get l)) Ha Hv).
    - cbn [wlayer]. replace {| tshape := tshape (get l); tval := tval (get l) |} with (get l) by now destruct (get l). now rewrite put_get.
    - cbn [wlayer wg]. intros p j q Hp Hj Hq. rewrite Hnf by exact Hj. field. now apply Hv.
  Qed.
  Theorem C72_axis : forall l axis,
    (exists P n Q, axis_at (tshape (get l)) axis P n Q) /\ (exists m, make l axis = Ok m /\ wlayer Ly m = l /\ waxis Ly m = axis) \/
    ~ (exists P n Q, axis_at (tshape (get l)) axis P n Q) /\ make l axis = Err ValueError.
  Proof.
    intros l [a|].
    - destruct (canonical_axis (length (tshape (get l))) a) as [i|e] eqn:E.
      + left.
        assert (exists P n Q, axis_at (tshape (get l)) (Some a) P n Q) as (P & n & Q & Ha).
        { unfold canonical_axis in E. set (a' := if Z.ltb a 0 then _ else a) in E.
          destruct (Z.leb_spec 0 a') as [H1|]; [|discriminate]. destruct (Z.ltb_spec a' (Z.of_nat (length (tshape (get l))))) as [H2|]; [|discriminate].
          cbn in E. injection E as <-. set (i := Z.to_nat a'). assert (Hi : (i < length (tshape (get l)))%nat) by lia.
          pose proof (firstn_skipn i (tshape (get l))) as Hsplit. destruct (skipn i (tshape (get l))) as [|n post] eqn:Es.
          { apply (f_equal (@length nat)) in Es. rewrite skipn_length in Es. cbn in Es. lia. }
          rewrite <- Hsplit. do 3 eexists. apply along.
          assert (Lp : length (firstn i (tshape (get l))) = i) by (rewrite firstn_length; lia).
          assert (Lq : length post = (length (tshape (get l)) - S i)%nat) by (apply (f_equal (@length nat)) in Es; rewrite skipn_length in Es; cbn in Es; lia).
          rewrite Lp, Lq. unfold a' in *. destruct (Z.ltb_spec a 0); [right|left]; lia. }
        split; [eauto|]. destruct (norm_slice _ _ _ _ _ (tval (get l)) Ha) as (nf & Hn & _).
        replace {| tshape := tshape (get l); tval := tval (get l) |} with (get l) in Hn by now destruct (get l).
        unfold make_weight_norm. rewrite Hn. cbn [bind]. eauto.
      + right. split.
        * intros (P & n & Q & Ha). destruct (slice_pos _ _ _ _ _ Ha) as (N & sl & H & _). unfold slices in H. rewrite E in H. discriminate.
        * unfold make_weight_norm, norm_except_axis, slices. rewrite E. cbn [bind]. unfold canonical_axis in E. destruct (_ && _)%bool in E; congruence.
    - left. split; [do 3 eexists; apply whole|]. eexists. split; [reflexivity|]. auto.
  Qed.
  (** A slice of zeros (that has entries) gives NaNs. *)
  Theorem C72_zero_slice : forall m x P n Q j, axis_at (tshape (get (wlayer Ly m))) (waxis Ly m) P n Q -> (j < n)%nat -> (0 < P)%nat -> (0 < Q)%nat ->
    (forall p q, (p < P)%nat -> (q < Q)%nat -> tval (get (wlayer Ly m)) ((p * n + j) * Q + q)%nat = 0) ->
    call m x = Ok None.
  Proof.
    intros m x P n Q j Ha Hj HP HQ H0. unfold call_weight_norm. cbv zeta.
    destruct (slice_pos _ _ _ _ _ Ha) as (N & sl & E & EN & Esl). rewrite E. cbn [bind].
    destruct (norm_slice _ _ _ _ _ (tval (get (wlayer Ly m))) Ha) as (nf & Hn & Hnf).
    replace (norm_except_axis (get (wlayer Ly m)) (waxis Ly m)) with (Ok nf) by (rewrite <- Hn; now destruct (get (wlayer Ly m))).
    cbn [bind]. unfold run_with. destruct (all_numbers _ _) eqn:A; [exfalso|reflexivity].
    rewrite all_numbers_iff in A. apply (A ((0 * n + j) * Q + 0)%nat).
    - rewrite (axis_size _ _ _ _ _ Ha). now apply pos_lt.
    - rewrite Esl by assumption. rewrite Hnf by exact Hj. unfold div.
      replace (slice_norm P n Q _ j) with 0; [now destruct (Req_EM_T 0 0)|]. symmetry. unfold slice_norm.
      rewrite Sum_0; [apply sqrt_0|]. intros p Hp. apply Sum_0. intros q Hq. rewrite H0 by assumption. ring.
  Qed.
End Weight.
Print Assumptions C72_call.
Print Assumptions C72_init.
Print Assumptions C72_axis.
Print Assumptions C72_zero_slice.
(** The slices of the new weight have norm [|g|], whatever the lengths of those of [v]; only the direction of [v] matters. *)
Theorem C72_norm : forall P n Q v (g : nat -> R) w j, slice_norm P n Q v j <> 0 ->
  (forall p q, (p < P)%nat -> (q < Q)%nat -> w ((p * n + j) * Q + q)%nat = g j * v ((p * n + j) * Q + q)%nat / slice_norm P n Q v j) ->
  slice_norm P n Q w j = Rabs (g j).
Proof.
  intros P n Q v g w j Hv Hw. set (N := slice_norm P n Q v j) in *.
  assert (HN : Sum P (fun p => Sum Q (fun q => v ((p * n + j) * Q + q)%nat ^ 2)) = N * N).
  { unfold N, slice_norm. rewrite sqrt_sqrt; [reflexivity|]. apply Norm_Props.Sum_pos. intros. apply Norm_Props.Sum_pos. intros. apply pow2_ge_0. }
  unfold slice_norm at 1. rewrite (Sum_ext P _ (fun p => (g j / N) ^ 2 * Sum Q (fun q => v ((p * n + j) * Q + q)%nat ^ 2))).
  - rewrite Norm_Props.Sum_scal, HN. replace ((g j / N) ^ 2 * (N * N)) with (g j * g j) by (field; exact Hv). apply sqrt_Rsqr_abs.
  - intros p Hp. rewrite <- Norm_Props.Sum_scal. apply Sum_ext. intros q Hq. rewrite Hw by assumption. field. exact Hv.
Qed.
Print Assumptions C72_norm.
Theorem C72_direction : forall P n Q v c j k, 0 < c -> slice_norm P n Q v j <> 0 ->
  c * v k / slice_norm P n Q (fun k => c * v k) j = v k / slice_norm P n Q v j.
Proof.
  intros P n Q v c j k Hc Hv. replace (slice_norm P n Q (fun k => c * v k) j) with (c * slice_norm P n Q v j); [field; split; [exact Hv|lra]|].
  unfold slice_norm. rewrite <- (sqrt_square c) at 1 by lra. rewrite <- sqrt_mult_alt by nra. f_equal. rewrite <- Norm_Props.Sum_scal. apply Sum_ext. intros p _.
  rewrite <- Norm_Props.Sum_scal. apply Sum_ext. intros q _. ring.
Qed.
Print Assumptions C72_direction.
(** Hence not every wrapped layer computes what the layer computes. *)
Definition id_layer_run (l : tensor) (x : unit) : res R := Ok (tval l 0%nat).
Theorem C72_init_refuted : exists l m y,
  make_weight_norm tensor (fun l => l) l (Some 0%Z) = Ok m /\ id_layer_run l tt = Ok y /\
  call_weight_norm tensor unit R (fun l => l) (fun _ w => w) id_layer_run m tt = Ok None.
Proof.
  exists {| tshape := [1; 1]%nat; tval := fun _ => 0 |}. do 2 eexists. split; [reflexivity|]. split; [reflexivity|].
  apply (C72_zero_slice tensor unit R (fun l => l) (fun _ w => w) id_layer_run _ tt 1 1 1 0); auto.
  cbn. apply (along [] 1%nat [1%nat] 0%Z). now left.
Qed.
Print Assumptions C72_init_refuted.
Example C72_ex : extensional (fun (_ : tensor) w => w) (fun l (x : unit) => Ok (if Nat.ltb 1 (size (tshape l)) then tval l 1%nat else 0)) /\
  axis_at [2; 1]%nat (Some (-2)%Z) 1 2 1 /\
  exists m, make_weight_norm tensor (fun l => l) {| tshape := [2; 1]%nat; tval := fun k => INR (S k) |} (Some (-2)%Z) = Ok m /\
    slice_norm 1 2 1 (fun k => INR (S k)) 1 = 2.
Proof.
  split; [|split].
  - intros l s f g x H. cbn [tshape tval]. destruct (Nat.ltb_spec 1 (size s)); [|reflexivity]. f_equal. now apply H.
  - apply (along [] 2%nat [1%nat]). now right.
  - eexists. split; [reflexivity|]. unfold slice_norm, Sum. cbn. replace ((1 + 1) * ((1 + 1) * 1) + 0 + 0) with (2 * 2) by ring. apply sqrt_square. lra.
Qed.

(** ** SpectralNorm *)
(** Products with a matrix of [m] rows and [n] columns, the 2-norm, and the inner product. *)
Definition Mv (n : nat) (W : nat -> nat -> R) (x : nat -> R) (i : nat) : R := Sum n (fun j => W i j * x j).
Definition Mtv (m : nat) (W : nat -> nat -> R) (x : nat -> R) (j : nat) : R := Sum m (fun i => W i j * x i).
Definition dotp (n : nat) (x y : nat -> R) : R := Sum n (fun i => x i * y i).
Definition nrm (n : nat) (x : nat -> R) : R := sqrt (dotp n x x).
(** One power iteration: [u = W v / max(eps, |W v|)], [v = W^T u / max(eps, |W^T u|)]. *)
Definition step (m n : nat) (W : nat -> nat -> R) (eps : R) (v : nat -> R) : (nat -> R) * (nat -> R) :=
  let u i := Mv n W v i / Rmax eps (nrm m (Mv n W v)) in
  (u, fun j => Mtv m W u j / Rmax eps (nrm n (Mtv m W u))).
(** [u^T W v] *)
Definition bilinear (m n : nat) (W : nat -> nat -> R) (uv : (nat -> R) * (nat -> R)) : R := dotp m (fst uv) (Mv n W (snd uv)).

Lemma sum_fun : forall n f, sum n f = Sum n f.
Proof. exact sum_Sum. Qed.
Lemma power_iteration_step : forall m n W uv eps, power_iteration m n W uv eps = step m n W eps (snd uv).
Proof.
  intros m n W uv eps. unfold power_iteration, step. cbv zeta.
  assert (Eu : (fun i => sum n (fun j => W i j * snd uv j)) = Mv n W (snd uv)) by (apply functional_extensionality; intros i; apply sum_Sum).
  assert (E1 : sqrt (sum m (fun i => sum n (fun j => W i j * snd uv j) * sum n (fun j => W i j * snd uv j))) = nrm m (Mv n W (snd uv))).
  { unfold nrm, dotp. f_equal. rewrite sum_Sum. apply Sum_ext. intros i _. rewrite sum_Sum. reflexivity. }
  rewrite E1. clear Eu E1. set (u := fun i => Mv n W (snd uv) i / Rmax eps (nrm m (Mv n W (snd uv)))).
  assert (U : forall i, sum n (fun j => W i j * snd uv j) / Rmax eps (nrm m (Mv n W (snd uv))) = u i) by (intros i; rewrite sum_Sum; reflexivity).
  assert (V : forall j, sum m (fun i => W i j * (sum n (fun j => W i j * snd uv j) / Rmax eps (nrm m (Mv n W (snd uv))))) = Mtv m W u j)
    by (intros j; rewrite sum_Sum; apply Sum_ext; intros i _; now rewrite U).
  f_equal; [apply functional_extensionality; exact U|]. apply functional_extensionality. intros j. rewrite V. f_equal. f_equal.
  unfold nrm, dotp. f_equal. rewrite sum_Sum. apply Sum_ext. intros i _. rewrite V. reflexivity.
Qed.
Lemma iter_r : forall {A} k (f : A -> A) x, Nat.iter k f (f x) = f (Nat.iter k f x).
Proof. induction k; intros f x; [reflexivity|]. cbn. f_equal. apply IHk. Qed.
Lemma iterations_iter : forall k m n W uv eps, iterations k m n W uv eps = Nat.iter k (fun p => step m n W eps (snd p)) uv.
Proof.
  induction k as [|k IH]; intros m n W uv eps; [reflexivity|]. cbn [iterations]. rewrite IH, power_iteration_step.
  exact (iter_r k (fun p => step m n W eps (snd p)) uv).
Qed.
Lemma sigma_bilinear : forall m n W uv, sigma m n W uv = bilinear m n W uv.
Proof.
  intros m n W uv. unfold sigma, bilinear, dotp. rewrite sum_Sum. apply Sum_ext. intros i _. rewrite sum_Sum. unfold Mv. rewrite <- Norm_Props.Sum_scal.
  apply Sum_ext. intros j _. ring.
Qed.

Section Spectral.
  Variables (Ly X Y St : Type) (get : Ly -> tensor) (put : Ly -> tensor -> Ly) (run : Ly -> X -> res Y).
  Variables (sget : St -> res ((nat -> R) * (nat -> R))) (sset : St -> (nat -> R) * (nat -> R) -> res St).
  Hypothesis run_ext : extensional put run.
  Notation call := (call_spectral_norm Ly X Y get put run St sget sset).
  (** C73. The weight, seen as a matrix with one row per entry of the first axis, is divided by [u^T W v]. Training updates [u] and [v] by
      [num_power_iterations] iterations first, and stores them; inference uses the stored ones and returns the state as it is. A zero divisor gives NaNs. *)
  Theorem C73_call : forall s x state inference uv0 m rest w,
    let W i j := tval (get (slayer Ly s)) (i * fold_right Nat.mul 1 rest + j)%nat in
    let n := fold_right Nat.mul 1%nat rest in
    tshape (get (slayer Ly s)) = m :: rest -> sget state = Ok uv0 ->
    let inf := match inference with Some b => b | None => sinference Ly s end in
    let uv := if inf then uv0 else Nat.iter (num_power_iterations Ly s) (fun p => step m n W (seps Ly s) (snd p)) uv0 in
    let state' := if inf then Ok state else sset state uv in
    (bilinear m n W uv <> 0 -> (forall k, (k < m * n)%nat -> w k = tval (get (slayer Ly s)) k / bilinear m n W uv) ->
     call s x state inference = (st <- state' ;; y <- run (put (slayer Ly s) {| tshape := m :: rest; tval := w |}) x ;; Ok (Some y, st))) /\
    (bilinear m n W uv = 0 -> (0 < m * n)%nat -> call s x state inference = (st <- state' ;; Ok (None, st))).
  Proof.
    intros s x state inference uv0 m rest w W n Hs Hg inf uv state'.
    assert (C : call s x state inference = (st <- state' ;;
              y <- run_with Ly X Y put run (slayer Ly s) (m :: rest) (fun k => div (tval (get (slayer Ly s)) k) (bilinear m n W uv)) x ;; Ok (y, st))).
    { unfold call_spectral_norm. rewrite Hg. cbn [bind]. cbv zeta. fold inf. unfold rows, cols, matrix, cols. rewrite Hs. cbn [hd tl].
      change (size rest) with n. fold W. unfold state', uv. destruct inf.
      - cbn [bind]. rewrite sigma_bilinear. reflexivity.
      - rewrite iterations_iter. destruct (sset state _) as [st|e]; [|reflexivity]. cbn [bind]. rewrite sigma_bilinear. reflexivity. }
    assert (Hsz : size (m :: rest) = (m * n)%nat) by reflexivity. split.
    - intros Hn Hw. rewrite C. destruct state' as [st|]; [|reflexivity]. cbn [bind]. unfold run_with. rewrite Hsz.
      assert (Hd : forall k, div (tval (get (slayer Ly s)) k) (bilinear m n W uv) = Some (tval (get (slayer Ly s)) k / bilinear m n W uv))
        by (intros k; unfold div; now destruct (Req_EM_T _ 0)).
      replace (all_numbers _ _) with true by (symmetry; apply all_numbers_iff; intros k _; rewrite Hd; discriminate).
      rewrite (run_ext _ _ _ w); [destruct (run _ x); reflexivity|]. intros k Hk. rewrite Hd. symmetry. now apply Hw.
    - intros H0 Hpos. rewrite C. destruct state' as [st|]; [|reflexivity]. cbn [bind]. unfold run_with. rewrite Hsz.
      destruct (all_numbers _ _) eqn:A; [exfalso|reflexivity]. rewrite all_numbers_iff in A. apply (A 0%nat Hpos). unfold div. rewrite H0. now destruct (Req_EM_T 0 0).
  Qed.
  Theorem C73_init : forall l num eps inf u0 v0,
    ((length (tshape (get l)) < 2)%nat -> make_spectral_norm Ly get l num eps inf u0 v0 = Err ValueError) /\
    (forall m rest, tshape (get l) = m :: rest -> rest <> [] -> m <> 0%nat ->
       make_spectral_norm Ly get l num eps inf u0 v0 =
       Ok ({| slayer := l; num_power_iterations := num; seps := eps; sinference := inf |},
           Nat.iter 15 (fun p => step m (fold_right Nat.mul 1%nat rest) (fun i j => tval (get l) (i * fold_right Nat.mul 1 rest + j)%nat) eps (snd p)) (u0, v0))) /\
    (forall rest, tshape (get l) = 0%nat :: rest -> rest <> [] -> make_spectral_norm Ly get l num eps inf u0 v0 = Err ZeroDivisionError).
  Proof.
    intros l num eps inf u0 v0. unfold make_spectral_norm. cbv zeta. split; [|split].
    3: { intros rest Hs Hr. unfold rows. rewrite Hs. destruct rest as [|r rest]; [contradiction|]. reflexivity. }
    - intros H. destruct (Nat.ltb_spec (length (tshape (get l))) 2); [reflexivity|lia].
    - intros m rest Hs Hr Hm. rewrite iterations_iter. unfold rows, cols, matrix, cols. rewrite Hs. destruct rest as [|r rest]; [contradiction|]. cbn [length hd tl Nat.ltb Nat.leb].
      destruct (Nat.eqb_spec m 0); [contradiction|]. reflexivity.
  Qed.
End Spectral.
Print Assumptions C73_call.
Print Assumptions C73_init.

(** *** What the iterations approximate *)
Lemma dotp_pos : forall n x, 0 <= dotp n x x.
Proof. intros. apply Norm_Props.Sum_pos. intros. apply Rle_0_sqr. Qed.
Lemma nrm_sq : forall n x, nrm n x * nrm n x = dotp n x x.
Proof. intros. unfold nrm. apply sqrt_sqrt. apply dotp_pos. Qed.
Lemma nrm_pos : forall n x, 0 <= nrm n x.
Proof. intros. apply sqrt_pos. Qed.
Lemma dotp_lin : forall n c d x y z, dotp n (fun i => c * x i + d * y i) z = c * dotp n x z + d * dotp n y z.
Proof.
  intros. unfold dotp. rewrite <- !Norm_Props.Sum_scal, <- Norm_Props.Sum_plus. apply Sum_ext. intros. ring.
Qed.
Lemma dotp_sym : forall n x y, dotp n x y = dotp n y x.
Proof. intros. apply Sum_ext. intros. ring. Qed.
Lemma cauchy_schwarz : forall n x y, dotp n x y <= nrm n x * nrm n y.
Proof.
  intros n x y. set (A := dotp n x x). set (B := dotp n y y). set (C := dotp n x y).
  assert (H : C * C <= A * B).
  { pose proof (dotp_pos n x) as HA. fold A in HA. destruct HA as [HA|HA].
    - pose proof (dotp_pos n (fun i => A * y i + (- C) * x i)) as HP. rewrite dotp_lin in HP.
      rewrite (dotp_sym n y), (dotp_sym n x (fun i => A * y i + - C * x i)), !dotp_lin in HP. rewrite (dotp_sym n y x) in HP. fold A B C in HP.
      assert (0 <= A * (A * B - C * C)) by nra. apply Rmult_le_reg_l with A; [exact HA|]. lra.
    - assert (Hx : forall i, (i < n)%nat -> x i * x i = 0) by (apply (Sum_zero_all n (fun i => x i * x i)); [intros; apply Rle_0_sqr|symmetry; exact HA]).
      assert (C = 0). { unfold C, dotp. apply Sum_0. intros i Hi. specialize (Hx i Hi). apply Rsqr_0_uniq in Hx. rewrite Hx. ring. }
      rewrite <- HA, H. lra. }
  assert (HN : 0 <= nrm n x * nrm n y) by (apply Rmult_le_pos; apply nrm_pos).
  destruct (Rle_lt_dec C 0) as [|HC]; [lra|]. fold C. apply Rsqr_incr_0; [|lra|exact HN]. unfold Rsqr.
  replace (nrm n x * nrm n y * (nrm n x * nrm n y)) with ((nrm n x * nrm n x) * (nrm n y * nrm n y)) by ring. rewrite !nrm_sq. exact H.
Qed.
Lemma adjoint : forall m n W u v, dotp m u (Mv n W v) = dotp n (Mtv m W u) v.
Proof.
  intros m n W u v. unfold dotp, Mv, Mtv. induction m as [|m IH].
  - rewrite Sum_0 by (intros; lia). symmetry. apply Sum_0. intros. unfold Sum. cbn. ring.
  - rewrite Sum_S, IH. rewrite <- Norm_Props.Sum_scal, <- Norm_Props.Sum_plus. apply Sum_ext. intros j _. rewrite Sum_S. ring.
Qed.
Lemma scaled_unit : forall n x c, c = nrm n x -> 0 < c -> nrm n (fun i => x i / c) = 1.
Proof.
  intros n x c Hc Hp. unfold nrm at 1. rewrite <- sqrt_1. f_equal. unfold dotp.
  rewrite (Sum_ext n _ (fun i => / (c * c) * (x i * x i))) by (intros; field; lra). rewrite Norm_Props.Sum_scal. fold (dotp n x x). rewrite <- nrm_sq, <- Hc. field. lra.
Qed.
(** An iteration that is not cut off by [eps]: the vectors have length one, and [u^T W v] is [|W^T u|]. *)
Definition regular (m n : nat) (W : nat -> nat -> R) (eps : R) (v : nat -> R) : Prop :=
  eps <= nrm m (Mv n W v) /\ eps <= nrm n (Mtv m W (fst (step m n W eps v))).
Theorem C73_unit : forall m n W eps v, 0 < eps -> regular m n W eps v ->
  let uv := step m n W eps v in
  nrm m (fst uv) = 1 /\ nrm n (snd uv) = 1 /\ bilinear m n W uv = nrm n (Mtv m W (fst uv)) /\ eps <= bilinear m n W uv.
Proof.
  intros m n W eps v He [H1 H2] uv.
  assert (E2 : bilinear m n W uv = nrm n (Mtv m W (fst uv))).
  { unfold bilinear. rewrite adjoint. unfold uv at 2. unfold step. cbn [snd]. fold (fst (step m n W eps v)). fold uv in H2 |- *.
    change (fun i => Mv n W v i / Rmax eps (nrm m (Mv n W v))) with (fst uv). rewrite (Rmax_right _ _ H2). set (z := Mtv m W (fst uv)) in *.
    unfold dotp. rewrite (Sum_ext n _ (fun i => / nrm n z * (z i * z i))) by (intros; unfold Rdiv; ring). rewrite Norm_Props.Sum_scal. fold (dotp n z z). rewrite <- nrm_sq. field. lra. }
  split; [|split; [|split; [exact E2|rewrite E2; exact H2]]].
  - unfold uv, step. cbn [fst]. apply scaled_unit; [now apply Rmax_right|]. rewrite Rmax_right by exact H1. exact (Rlt_le_trans _ _ _ He H1).
  - unfold uv, step. cbn [snd]. change (fun i => Mv n W v i / Rmax eps (nrm m (Mv n W v))) with (fst uv). apply scaled_unit; [now apply Rmax_right|]. rewrite Rmax_right by exact H2. exact (Rlt_le_trans _ _ _ He H2).
Qed.
Print Assumptions C73_unit.
(** The divisor is never more than the true norm of the matrix, so the normalised matrix has norm at least one. *)
Theorem C73_lower_bound : forall m n W u v s, nrm m u = 1 -> nrm n v = 1 ->
  (forall x, nrm m (Mv n W x) <= s * nrm n x) -> bilinear m n W (u, v) <= s.
Proof.
  intros m n W u v s Hu Hv Hs. unfold bilinear. cbn [fst snd]. pose proof (cauchy_schwarz m u (Mv n W v)) as H. rewrite Hu, Rmult_1_l in H.
  specialize (Hs v). rewrite Hv, Rmult_1_r in Hs. lra.
Qed.
Print Assumptions C73_lower_bound.
Lemma nrm_scal : forall n c x, nrm n (fun i => c * x i) = Rabs c * nrm n x.
Proof.
  intros. unfold nrm. rewrite <- sqrt_Rsqr_abs, <- sqrt_mult_alt by apply Rle_0_sqr. f_equal. unfold dotp, Rsqr. rewrite <- Norm_Props.Sum_scal. apply Sum_ext. intros. ring.
Qed.
Theorem C73_norm_at_least_one : forall m n W u v, nrm m u = 1 -> nrm n v = 1 -> 0 < bilinear m n W (u, v) ->
  1 <= nrm m (Mv n (fun i j => W i j / bilinear m n W (u, v)) v).
Proof.
  intros m n W u v Hu Hv Hp. set (s := bilinear m n W (u, v)) in *.
  replace (Mv n (fun i j => W i j / s) v) with (fun i => / s * Mv n W v i).
  2:{ apply functional_extensionality. intros i. unfold Mv. rewrite <- Norm_Props.Sum_scal. apply Sum_ext. intros j _. unfold Rdiv. ring. }
  rewrite nrm_scal. rewrite Rabs_right by (left; now apply Rinv_0_lt_compat).
  pose proof (cauchy_schwarz m u (Mv n W v)) as H. rewrite Hu, Rmult_1_l in H. change (dotp m u (Mv n W v)) with s in H.
  apply Rmult_le_reg_l with s; [exact Hp|]. rewrite Rmult_1_r, <- Rmult_assoc, Rinv_r by lra. lra.
Qed.
Print Assumptions C73_norm_at_least_one.
(** Iterating never makes the estimate smaller. *)
Theorem C73_monotone : forall m n W eps u v, 0 < eps -> nrm m u = 1 -> nrm n v = 1 -> regular m n W eps v ->
  bilinear m n W (u, v) <= bilinear m n W (step m n W eps v).
Proof.
  intros m n W eps u v He Hu Hv Hr. destruct (C73_unit m n W eps v He Hr) as (Hu' & _ & E & _). rewrite E. clear E.
  apply Rle_trans with (nrm m (Mv n W v)).
  - unfold bilinear. cbn [fst snd]. pose proof (cauchy_schwarz m u (Mv n W v)). rewrite Hu in H. lra.
  - pose proof (cauchy_schwarz n (Mtv m W (fst (step m n W eps v))) v) as H. rewrite Hv, Rmult_1_r, <- adjoint in H.
    eapply Rle_trans; [|exact H]. destruct Hr as [H1 _]. unfold step at 1. cbn [fst]. rewrite (Rmax_right _ _ H1). set (z := Mv n W v) in *.
    unfold dotp. rewrite (Sum_ext m _ (fun i => / nrm m z * (z i * z i))) by (intros; unfold Rdiv; ring). rewrite Norm_Props.Sum_scal. fold (dotp m z z). rewrite <- nrm_sq.
    right. field. lra.
Qed.
Print Assumptions C73_monotone.
(** One iteration is exact for matrices of rank one, whatever the start (if not orthogonal). *)
Theorem C73_rank_one : forall m n s a b v eps, 0 < eps -> nrm m a = 1 -> nrm n b = 1 -> eps <= s -> eps <= s * Rabs (dotp n b v) ->
  let W i j := s * a i * b j in
  bilinear m n W (step m n W eps v) = s /\ forall x, nrm m (Mv n W x) <= s * nrm n x.
Proof.
  intros m n s a b v eps He Ha Hb Hs Hv W.
  assert (EM : forall x, Mv n W x = fun i => (s * dotp n b x) * a i).
  { intros x. apply functional_extensionality. intros i. unfold Mv, W, dotp. transitivity (s * a i * Sum n (fun i => b i * x i)); [rewrite <- Norm_Props.Sum_scal; apply Sum_ext; intros; ring|ring]. }
  assert (ET : forall x, Mtv m W x = fun j => (s * dotp m a x) * b j).
  { intros x. apply functional_extensionality. intros j. unfold Mtv, W, dotp. transitivity (s * b j * Sum m (fun i => a i * x i)); [rewrite <- Norm_Props.Sum_scal; apply Sum_ext; intros; ring|ring]. }
  assert (Haa : dotp m a a = 1) by (rewrite <- nrm_sq, Ha; ring).
  split.
  - set (t := dotp n b v) in *. assert (HN : nrm m (Mv n W v) = s * Rabs t) by (rewrite EM; fold t; rewrite nrm_scal, Ha, Rabs_mult, (Rabs_right s) by lra; ring).
    assert (Ht : 0 < Rabs t) by (apply Rmult_lt_reg_l with s; lra).
    set (u := fst (step m n W eps v)).
    assert (Hau : dotp m a u = t / Rabs t).
    { unfold u, step. cbn [fst]. rewrite HN, Rmax_right by exact Hv. rewrite EM. fold t.
      unfold dotp. rewrite (Sum_ext m _ (fun i => (t / Rabs t) * (a i * a i))) by (intros; field; lra). rewrite Norm_Props.Sum_scal. fold (dotp m a a). rewrite Haa. ring. }
    assert (HN2 : nrm n (Mtv m W u) = s).
    { rewrite ET, nrm_scal, Hb, Hau, Rmult_1_r, Rabs_mult, (Rabs_right s) by lra. unfold Rdiv. rewrite Rabs_mult, Rabs_inv, Rabs_Rabsolu. field. lra. }
    destruct (C73_unit m n W eps v He) as (_ & _ & E & _).
    + split; [rewrite HN; exact Hv|fold u; rewrite HN2; exact Hs].
    + rewrite E. exact HN2.
  - intros x. rewrite EM, nrm_scal, Ha, Rmult_1_r, Rabs_mult, (Rabs_right s) by lra. apply Rmult_le_compat_l; [lra|].
    unfold Rabs. destruct (Rcase_abs _).
    + pose proof (cauchy_schwarz n (fun i => - b i) x) as H. replace (dotp n (fun i => - b i) x) with (- dotp n b x) in H.
      * replace (nrm n (fun i => - b i)) with 1 in H by (rewrite <- Hb; unfold nrm; f_equal; apply Sum_ext; intros; ring). lra.
      * replace (- dotp n b x) with (-1 * dotp n b x) by ring. unfold dotp. rewrite <- Norm_Props.Sum_scal. apply Sum_ext. intros. ring.
    + pose proof (cauchy_schwarz n b x) as H. rewrite Hb in H. lra.
Qed.
Print Assumptions C73_rank_one.
Example C73_ex : let W (i j : nat) := 3 in let v (j : nat) := 1 in
  regular 1 1 W (1 / 10) v /\ bilinear 1 1 W (step 1 1 W (1 / 10) v) = 3.
Proof.
  cbn zeta. assert (N : forall x, 0 <= x -> nrm 1 (fun _ => x) = x) by (intros x Hx; unfold nrm, dotp, Sum; cbn; rewrite Rplus_0_r; now apply sqrt_square).
  assert (E1 : Mv 1 (fun _ _ => 3) (fun _ => 1) = fun _ => 3) by (apply functional_extensionality; intros; unfold Mv, Sum; cbn; ring).
  assert (R : regular 1 1 (fun _ _ => 3) (1 / 10) (fun _ => 1)).
  { split; [rewrite E1, N; lra|]. unfold step. cbn [fst]. rewrite E1, N, Rmax_right by lra.
    replace (Mtv 1 _ _) with (fun _ : nat => 3) by (apply functional_extensionality; intros; unfold Mtv, Sum; cbn; field). rewrite N; lra. }
  split; [exact R|]. destruct (C73_unit 1 1 (fun _ _ => 3) (1 / 10) (fun _ => 1)) as (_ & _ & E & _); [lra|exact R|]. rewrite E.
  unfold step. cbn [fst]. rewrite E1, N, Rmax_right by lra.
  replace (Mtv 1 _ _) with (fun _ : nat => 3) by (apply functional_extensionality; intros; unfold Mtv, Sum; cbn; field). apply N. lra.
Qed.
