(** C70 (LayerNorm and RMSNorm) and C71 (GroupNorm). *)
From Verif Require Import Norm_Model.
From Coq Require Import Lia Lra Psatz.
Local Open Scope R_scope.
Local Open Scope list_scope.

(** ** Specification *)
Definition Sum (n : nat) (f : nat -> R) : R := fold_right Rplus 0 (map f (seq 0 n)).
(** Mean and variance of the numbers [X a], ..., [X (a + n - 1)]. *)
Definition Mean (a n : nat) (X : nat -> R) : R := Sum n (fun i => X (a + i)%nat) / INR n.
Definition Var (a n : nat) (X : nat -> R) : R := Sum n (fun i => (X (a + i)%nat - Mean a n X) ^ 2) / INR n.
Definition ent {D} (a : array D) (i : nat) : R := nth i (data D a) 0.
Definition wf {D} (a : array D) : Prop := length (data D a) = size (shape D a).
(** A parameter that is used has the right shape. *)
Definition fits {D} (use : bool) (p : option (array D)) (s : list nat) : Prop :=
  use = true -> exists a, p = Some a /\ shape D a = s /\ wf a.
Definition param {D} (use : bool) (p : option (array D)) (dflt : R) (conv : R -> R) (i : nat) : R :=
  if use then match p with Some a => conv (ent a i) | None => dflt end else dflt.

(** ** Lists and sums *)
Lemma Sum_ext : forall n f g, (forall i, (i < n)%nat -> f i = g i) -> Sum n f = Sum n g.
Proof.
  intros n f g H. unfold Sum. f_equal. apply map_ext_in. intros i Hi. apply in_seq in Hi. apply H. lia.
Qed.
Lemma seq_map_nth : forall {A} (l : list A) d k, map (fun i => nth (i - k) l d) (seq k (length l)) = l.
Proof.
  induction l as [|x l IH]; intros d k; cbn [length seq map]; [reflexivity|].
  rewrite Nat.sub_diag. cbn [nth]. f_equal. rewrite <- (IH d (S k)) at 2. apply map_ext_in. intros i Hi. apply in_seq in Hi.
  replace (i - k)%nat with (S (i - S k)) by lia. reflexivity.
Qed.
Lemma map_nth_seq : forall {A} (l : list A) d, map (fun i => nth i l d) (seq 0 (length l)) = l.
Proof. intros A l d. rewrite <- (seq_map_nth l d 0) at 2. apply map_ext. intros i. now rewrite Nat.sub_0_r. Qed.
Lemma rsum_fold : forall l, rsum l = fold_right Rplus 0 l.
Proof. induction l; cbn; congruence. Qed.
Lemma rsum_Sum : forall (l : list R) f, (forall i, (i < length l)%nat -> nth i l 0 = f i) -> rsum l = Sum (length l) f.
Proof.
  intros l f H. rewrite rsum_fold. unfold Sum. f_equal. rewrite <- (map_nth_seq l 0) at 1. apply map_ext_in. intros i Hi. apply in_seq in Hi. apply H. lia.
Qed.
Lemma nth_map_in : forall {A B} (f : A -> B) l i da db, (i < length l)%nat -> nth i (map f l) db = f (nth i l da).
Proof. intros A B f l i da db H. rewrite (nth_indep _ db (f da)) by (rewrite map_length; exact H). apply map_nth. Qed.
Lemma rmean_Mean : forall l a X, (forall i, (i < length l)%nat -> nth i l 0 = X (a + i)%nat) -> rmean l = Mean a (length l) X.
Proof. intros l a X H. unfold rmean, Mean. f_equal. apply rsum_Sum. exact H. Qed.
Lemma rvar_Var : forall l a X, (forall i, (i < length l)%nat -> nth i l 0 = X (a + i)%nat) -> rvar l = Var a (length l) X.
Proof.
  intros l a X H. unfold rvar, Var. cbv zeta. rewrite (rmean_Mean l a X H). unfold rmean. rewrite map_length. f_equal.
  rewrite (rsum_Sum _ (fun i => (X (a + i)%nat - Mean a (length l) X) ^ 2)).
  - now rewrite map_length.
  - intros i Hi. rewrite map_length in Hi. rewrite (nth_map_in _ _ _ 0) by exact Hi. rewrite H by exact Hi. ring.
Qed.
Lemma rsum_pos : forall l, Forall (fun x => 0 <= x) l -> 0 <= rsum l.
Proof. induction 1; cbn; lra. Qed.
Lemma rmean_pos : forall l, Forall (fun x => 0 <= x) l -> 0 <= rmean l.
Proof.
  intros l H. unfold rmean. destruct l as [|x l].
  - cbn. unfold Rdiv. lra.
  - apply Rmult_le_pos; [now apply rsum_pos|]. left. apply Rinv_0_lt_compat. apply lt_0_INR. cbn; lia.
Qed.
Lemma rvar_pos : forall l, 0 <= rvar l.
Proof.
  intros l. unfold rvar. cbv zeta. apply rmean_pos. apply Forall_forall. intros y Hy. apply in_map_iff in Hy as (x & <- & _). apply Rle_0_sqr.
Qed.
Lemma shape_eqb_iff : forall s t, shape_eqb s t = true <-> s = t.
Proof. intros s t. unfold shape_eqb. destruct (list_eq_dec Nat.eq_dec s t); split; congruence. Qed.
Lemma shape_eqb_refl : forall s, shape_eqb s s = true.
Proof. intros s. now apply shape_eqb_iff. Qed.
Lemma nth_zip_with : forall f u v i, (i < length u)%nat -> (i < length v)%nat -> nth i (zip_with f u v) 0 = f (nth i u 0) (nth i v 0).
Proof.
  intros f u v i Hu Hv. unfold zip_with. rewrite (nth_map_in _ _ _ (0, 0)) by (rewrite combine_length; lia).
  revert v i Hu Hv. induction u as [|x u IH]; intros [|y v] [|i] Hu Hv; cbn in *; try lia; auto. apply IH; lia.
Qed.
Lemma zip_with_length : forall f u v, length (zip_with f u v) = Nat.min (length u) (length v).
Proof. intros. unfold zip_with. now rewrite map_length, combine_length. Qed.

Section Proofs.
  Variables (D St : Type) (dd : D) (promote : D -> D) (cast : D -> R -> R).

  Lemma with_param_ok : forall use p s d f out, fits use p s -> length out = size s ->
    exists o, with_param D cast use p s d f out = Ok o /\ length o = size s /\
      forall i, (i < size s)%nat ->
        nth i o 0 = if use then match p with Some a => f (cast d (ent a i)) (nth i out 0) | None => 0 end else nth i out 0.
  Proof.
    intros use p s d f out Hf Hl. unfold with_param. destruct use.
    - destruct (Hf eq_refl) as (a & -> & Hs & Hw). rewrite Hs, shape_eqb_refl. eexists. split; [reflexivity|].
      unfold wf in Hw. rewrite Hs in Hw. split; [rewrite zip_with_length, map_length; lia|].
      intros i Hi. rewrite nth_zip_with by (rewrite ?map_length; lia). f_equal. rewrite (nth_map_in _ _ _ 0) by lia. reflexivity.
    - eexists. split; [reflexivity|]. auto.
  Qed.

  Lemma finish_ok : forall m x d out (st : option St),
    fits (use_weight D m) (nweight D m) (shape D x) -> fits (use_bias D m) (nbias D m) (shape D x) -> length out = size (shape D x) ->
    exists y, finish D St cast m x d out st = Ok (y, st) /\ shape D y = shape D x /\ dt D y = dt D x /\ wf y /\
      forall i, (i < size (shape D x))%nat ->
        ent y i = cast (dt D x) (nth i out 0 * param (use_weight D m) (nweight D m) 1 (cast d) i + param (use_bias D m) (nbias D m) 0 (cast d) i).
  Proof.
    intros m x d out st Hw Hb Hl. unfold finish.
    destruct (with_param_ok _ _ _ d (fun w o => w * o) out Hw Hl) as (o1 & -> & L1 & E1). cbn [bind].
    destruct (with_param_ok _ _ _ d (fun b o => o + b) o1 Hb L1) as (o2 & -> & L2 & E2). cbn [bind].
    eexists. split; [reflexivity|]. cbn [shape dt]. do 2 (split; [reflexivity|]).
    split; [unfold wf; cbn; now rewrite map_length|]. intros i Hi. unfold ent at 1. cbn [data].
    rewrite (nth_map_in _ _ _ 0) by lia. f_equal. rewrite E2 by exact Hi. rewrite E1 by exact Hi. unfold param.
    destruct (use_weight D m) eqn:EW, (use_bias D m) eqn:EB;
      try (destruct (Hw eq_refl) as (w & -> & _)); try (destruct (Hb eq_refl) as (b & -> & _)); ring.
  Qed.

  (** C70. LayerNorm accepts exactly the arrays of its shape; the result has that shape and the dtype of the input, and its
      entries are the documented formula, computed in the promoted dtype. A state is handed back unchanged. *)
  Theorem C70_layer_norm : forall m x (st : option St), wf x ->
    fits (use_weight D m) (nweight D m) (nshape D m) -> fits (use_bias D m) (nbias D m) (nshape D m) ->
    let n := size (shape D x) in
    let d := promote (dt D x) in
    let X i := cast d (ent x i) in
    (shape D x <> nshape D m -> layer_norm D St promote cast m x st = Err ValueError) /\
    (shape D x = nshape D m -> exists y, layer_norm D St promote cast m x st = Ok (y, st) /\
       shape D y = shape D x /\ dt D y = dt D x /\ wf y /\
       forall i, (i < n)%nat ->
         ent y i = cast (dt D x) ((X i - Mean 0 n X) / sqrt (Var 0 n X + neps D m)
                                  * param (use_weight D m) (nweight D m) 1 (cast d) i
                                  + param (use_bias D m) (nbias D m) 0 (cast d) i)).
  Proof.
    intros m x st Hx Hw Hb n d X. unfold layer_norm. split; intros E.
    - destruct (shape_eqb _ _) eqn:F; [apply shape_eqb_iff in F; contradiction|reflexivity].
    - rewrite <- E in Hw, Hb |- *. rewrite shape_eqb_refl. cbn [negb]. cbv zeta. fold d.
      set (xs := map (cast d) (data D x)).
      assert (L : length xs = n) by (unfold xs; rewrite map_length; exact Hx).
      assert (EX : forall i, (i < length xs)%nat -> nth i xs 0 = X (0 + i)%nat)
        by (intros i Hi; unfold xs, X, ent; apply nth_map_in; unfold xs in Hi; now rewrite map_length in Hi).
      destruct (finish_ok m x d (map (fun v => (v - rmean xs) * rsqrt (Rmax 0 (rvar xs) + neps D m)) xs) st Hw Hb) as (y & Hy & H1 & H2 & H3 & H4).
      { rewrite map_length. exact L. }
      exists y. split; [exact Hy|]. do 3 (split; [assumption|]). intros i Hi. rewrite H4 by exact Hi. f_equal. f_equal. f_equal.
      rewrite (nth_map_in _ _ _ 0) by lia. rewrite EX by lia. cbn [Nat.add].
      rewrite Rmax_right by apply rvar_pos. rewrite (rmean_Mean xs 0 X EX), (rvar_Var xs 0 X EX), L. reflexivity.
  Qed.
  Theorem C70_rms_norm : forall m x (st : option St), wf x ->
    fits (use_weight D m) (nweight D m) (nshape D m) -> fits (use_bias D m) (nbias D m) (nshape D m) ->
    let n := size (shape D x) in
    let d := promote (dt D x) in
    let X i := cast d (ent x i) in
    (shape D x <> nshape D m -> rms_norm D St promote cast m x st = Err ValueError) /\
    (shape D x = nshape D m -> exists y, rms_norm D St promote cast m x st = Ok (y, st) /\
       shape D y = shape D x /\ dt D y = dt D x /\ wf y /\
       forall i, (i < n)%nat ->
         ent y i = cast (dt D x) (X i / sqrt (neps D m + / INR n * Sum n (fun i => (X i) ^ 2))
                                  * param (use_weight D m) (nweight D m) 1 (cast d) i
                                  + param (use_bias D m) (nbias D m) 0 (cast d) i)).
  Proof.
    intros m x st Hx Hw Hb n d X. unfold rms_norm. split; intros E.
    - destruct (shape_eqb _ _) eqn:F; [apply shape_eqb_iff in F; contradiction|reflexivity].
    - rewrite <- E in Hw, Hb |- *. rewrite shape_eqb_refl. cbn [negb]. cbv zeta. fold d.
      set (xs := map (cast d) (data D x)).
      assert (L : length xs = n) by (unfold xs; rewrite map_length; exact Hx).
      assert (EX : forall i, (i < length xs)%nat -> nth i xs 0 = X i)
        by (intros i Hi; unfold xs, X, ent; apply nth_map_in; unfold xs in Hi; now rewrite map_length in Hi).
      destruct (finish_ok m x d (map (fun v => rsqrt (rmean (map (fun v => v * v) xs) + neps D m) * v) xs) st Hw Hb) as (y & Hy & H1 & H2 & H3 & H4).
      { rewrite map_length. exact L. }
      exists y. split; [exact Hy|]. do 3 (split; [assumption|]). intros i Hi. rewrite H4 by exact Hi. f_equal. f_equal. f_equal.
      rewrite (nth_map_in _ _ _ 0) by lia. rewrite EX by lia.
      replace (rmean (map (fun v => v * v) xs) + neps D m) with (neps D m + / INR n * Sum n (fun i => (X i) ^ 2)).
      + unfold rsqrt, Rdiv. ring.
      + unfold rmean. rewrite map_length, L. rewrite (rsum_Sum _ (fun i => X i ^ 2)).
        * rewrite map_length, L. unfold Rdiv. ring.
        * intros j Hj. rewrite map_length in Hj. rewrite (nth_map_in _ _ _ 0) by exact Hj. rewrite EX by exact Hj. ring.
  Qed.
  (** The constructors build layers of the right kind: ones and zeros of the given shape where asked for;
      [elementwise_affine] overrides both flags. *)
  Theorem C70_init : forall s eps uw ub od aff,
    let m1 := make_layer_norm D dd s eps uw ub od aff in
    let m2 := make_rms_norm D dd s eps uw ub od in
    let sh := match s with ShInt n => [n] | ShSeq l => l end in
    let dflt (use : bool) (p : option (array D)) (v : R) := match p with
      | None => use = false
      | Some a => use = true /\ shape D a = sh /\ wf a /\ Forall (eq v) (data D a) /\ dt D a = match od with Some d => d | None => dd end end in
    let flag (b : bool) := match aff with Some a => a | None => b end in
    nshape D m1 = sh /\ neps D m1 = eps /\ use_weight D m1 = flag uw /\ use_bias D m1 = flag ub /\
    dflt (flag uw) (nweight D m1) 1 /\ dflt (flag ub) (nbias D m1) 0 /\
    nshape D m2 = sh /\ neps D m2 = eps /\ use_weight D m2 = uw /\ use_bias D m2 = ub /\
    dflt uw (nweight D m2) 1 /\ dflt ub (nbias D m2) 0.
  Proof.
    assert (F : forall s (od : option D) v, shape D (full D dd s od v) = s /\ wf (full D dd s od v) /\ Forall (eq v) (data D (full D dd s od v)) /\
                dt D (full D dd s od v) = match od with Some d => d | None => dd end).
    { intros s od v. cbn. split; [reflexivity|]. split; [unfold wf; cbn; apply repeat_length|]. split; [|reflexivity].
      apply Forall_forall. intros z Hz. apply repeat_spec in Hz. auto. }
    intros s eps uw ub od aff. cbn zeta. unfold make_layer_norm, make_rms_norm, to_shape. cbn [nshape neps use_weight use_bias nweight nbias].
    do 4 (split; [reflexivity|]).
    split; [destruct aff as [[]|], uw; cbn; auto; split; auto; apply F|]. split; [destruct aff as [[]|], ub; cbn; auto; split; auto; apply F|].
    do 4 (split; [reflexivity|]). split; [destruct uw; cbn; auto; split; auto; apply F|destruct ub; cbn; auto; split; auto; apply F].
  Qed.
End Proofs.
Print Assumptions C70_layer_norm.
Print Assumptions C70_rms_norm.
Print Assumptions C70_init.

(** ** Statistics of the output, in exact arithmetic. *)
Lemma Sum_S : forall n f, Sum (S n) f = Sum n f + f n.
Proof.
  intros n f. unfold Sum. rewrite seq_S, map_app, fold_right_app. cbn. rewrite Rplus_0_r. set (l := map f (seq 0 n)). generalize (f n) as z.
  intros z. induction l as [|y l IH]; cbn; [lra|]. rewrite IH. lra.
Qed.
Lemma Sum_plus : forall n f g, Sum n (fun i => f i + g i) = Sum n f + Sum n g.
Proof. induction n; intros; [unfold Sum; cbn; lra|]. rewrite !Sum_S, IHn. lra. Qed.
Lemma Sum_scal : forall n c f, Sum n (fun i => c * f i) = c * Sum n f.
Proof. induction n; intros; [unfold Sum; cbn; lra|]. rewrite !Sum_S, IHn. lra. Qed.
Lemma Sum_const : forall n c, Sum n (fun _ => c) = INR n * c.
Proof. induction n; intros; [unfold Sum; cbn; lra|]. rewrite Sum_S, IHn, S_INR. lra. Qed.
Lemma Sum_pos : forall n f, (forall i, (i < n)%nat -> 0 <= f i) -> 0 <= Sum n f.
Proof. induction n; intros f H; [unfold Sum; cbn; lra|]. rewrite Sum_S. pose proof (IHn f). pose proof (H n). assert (0 <= f n) by (apply H; lia). assert (0 <= Sum n f) by (apply IHn; intros; apply H; lia). lra. Qed.
Lemma Var_pos : forall a n X, 0 <= Var a n X.
Proof.
  intros a n X. unfold Var, Rdiv. destruct n as [|n]; [unfold Sum; cbn; lra|]. apply Rmult_le_pos; [apply Sum_pos; intros; apply pow2_ge_0|].
  left. apply Rinv_0_lt_compat. apply lt_0_INR. lia.
Qed.
Lemma Mean_center : forall a n X, (0 < n)%nat -> Sum n (fun i => X (a + i)%nat - Mean a n X) = 0.
Proof.
  intros a n X Hn. pose proof (lt_0_INR n Hn). rewrite (Sum_ext n _ (fun i => X (a + i)%nat + (- Mean a n X))) by (intros; ring).
  rewrite Sum_plus, Sum_const. unfold Mean. field. lra.
Qed.
(** Without parameters the output of LayerNorm has mean zero and variance [v / (v + eps)], where [v] is the variance of the input;
    adding a number to all entries of the input changes nothing. *)
Definition Norm (a n : nat) (eps : R) (X : nat -> R) (i : nat) : R := (X i - Mean a n X) / sqrt (Var a n X + eps).
Theorem C70_mean_variance : forall a n eps X, (0 < n)%nat -> 0 < Var a n X + eps ->
  Mean a n (Norm a n eps X) = 0 /\ Var a n (Norm a n eps X) = Var a n X / (Var a n X + eps).
Proof.
  intros a n eps X Hn Hp. pose proof (lt_0_INR n Hn) as HI. pose proof (sqrt_lt_R0 _ Hp) as Hs. pose proof (sqrt_sqrt _ (Rlt_le _ _ Hp)) as Hss.
  assert (M : Mean a n (Norm a n eps X) = 0).
  { unfold Mean at 1. unfold Norm. rewrite (Sum_ext n _ (fun i => / sqrt (Var a n X + eps) * (X (a + i)%nat - Mean a n X))) by (intros; unfold Rdiv; ring).
    rewrite Sum_scal, Mean_center by exact Hn. unfold Rdiv. ring. }
  split; [exact M|]. unfold Var at 1. rewrite M.
  rewrite (Sum_ext n _ (fun i => / (Var a n X + eps) * (X (a + i)%nat - Mean a n X) ^ 2)).
  - rewrite Sum_scal. replace (Sum n _) with (INR n * Var a n X) by (unfold Var; field; lra). field. split; lra.
  - intros i _. unfold Norm. rewrite <- Hss at 2. field. lra.
Qed.
Print Assumptions C70_mean_variance.
Lemma Mean_shift : forall a n X c, (0 < n)%nat -> Mean a n (fun i => X i + c) = Mean a n X + c.
Proof. intros a n X c Hn. pose proof (lt_0_INR n Hn). unfold Mean. rewrite Sum_plus, Sum_const. field. lra. Qed.
Theorem C70_shift : forall a n eps X c i, (0 < n)%nat -> Norm a n eps (fun i => X i + c) i = Norm a n eps X i.
Proof.
  intros a n eps X c i Hn. unfold Norm, Var. rewrite Mean_shift by exact Hn.
  rewrite (Sum_ext n (fun i0 => (X (a + i0)%nat + c - (Mean a n X + c)) ^ 2) (fun i0 => (X (a + i0)%nat - Mean a n X) ^ 2)) by (intros; ring).
  f_equal. ring.
Qed.
Print Assumptions C70_shift.
(** RMSNorm of the centred input is LayerNorm of the input. *)
Theorem C70_rms_of_centred : forall n eps X i, (0 < n)%nat ->
  let Y i := X i - Mean 0 n X in
  Y i / sqrt (eps + / INR n * Sum n (fun i => Y i ^ 2)) = Norm 0 n eps X i.
Proof.
  intros n eps X i Hn Y. unfold Norm, Y. f_equal. f_equal. unfold Var. cbn [Nat.add]. unfold Rdiv. ring.
Qed.
Print Assumptions C70_rms_of_centred.
(** With [eps = 0] a positive factor on the input changes nothing. *)
Theorem C70_scale : forall a n X c i, (0 < n)%nat -> 0 < c -> 0 < Var a n X -> Norm a n 0 (fun i => c * X i) i = Norm a n 0 X i.
Proof.
  intros a n X c i Hn Hc HV. pose proof (lt_0_INR n Hn) as HI.
  assert (M : Mean a n (fun i => c * X i) = c * Mean a n X) by (unfold Mean; rewrite Sum_scal; field; lra).
  assert (V : Var a n (fun i => c * X i) = c ^ 2 * Var a n X).
  { unfold Var. rewrite M. rewrite (Sum_ext n _ (fun i => c ^ 2 * (X (a + i)%nat - Mean a n X) ^ 2)) by (intros; ring). rewrite Sum_scal. field. lra. }
  unfold Norm. rewrite M, V, !Rplus_0_r. rewrite sqrt_mult by (try apply pow2_ge_0; lra). rewrite sqrt_pow2 by lra.
  pose proof (sqrt_lt_R0 _ HV). field. split; lra.
Qed.
Print Assumptions C70_scale.
(** With [eps > 0] entries stay bounded: the square of an output of LayerNorm (without parameters) is at most the number of entries. *)
Theorem C70_bounded : forall n eps X i, (i < n)%nat -> 0 < eps -> (Norm 0 n eps X i) ^ 2 <= INR n.
Proof.
  intros n eps X i Hi He. pose proof (Var_pos 0 n X) as HV. assert (Hn : (0 < n)%nat) by lia. pose proof (lt_0_INR n Hn) as HI.
  assert (Hs : 0 < Var 0 n X + eps) by lra. pose proof (sqrt_lt_R0 _ Hs) as Hq. pose proof (sqrt_sqrt _ (Rlt_le _ _ Hs)) as Hss.
  assert (HT : (X i - Mean 0 n X) ^ 2 <= INR n * Var 0 n X).
  { unfold Var. replace (INR n * (Sum n (fun j => (X (0 + j)%nat - Mean 0 n X) ^ 2) / INR n)) with (Sum n (fun j => (X j - Mean 0 n X) ^ 2)) by (cbn [Nat.add]; field; lra).
    generalize (Mean 0 n X) as m. intros m. clear - Hi. induction n as [|n IH]; [lia|]. rewrite Sum_S. destruct (Nat.eq_dec i n) as [-> |].
    - assert (0 <= Sum n (fun j => (X j - m) ^ 2)) by (apply Sum_pos; intros; apply pow2_ge_0). lra.
    - assert (i < n)%nat by lia. specialize (IH H). pose proof (pow2_ge_0 (X n - m)). lra. }
  unfold Norm. replace (((X i - Mean 0 n X) / sqrt (Var 0 n X + eps)) ^ 2) with ((X i - Mean 0 n X) ^ 2 / (Var 0 n X + eps)) by (rewrite <- Hss at 1; field; lra).
  apply Rmult_le_reg_r with (Var 0 n X + eps); [exact Hs|]. unfold Rdiv. rewrite Rmult_assoc, Rinv_l by lra. nra.
Qed.
Print Assumptions C70_bounded.
Example C70_ex : let D := unit in
  let m := make_layer_norm D tt (ShInt 2) 3 true true None None in
  let x := {| dt := tt; shape := [2%nat]; data := [1; 3] |} in
  (exists y, layer_norm D unit (fun d => d) (fun _ v => v) m x None = Ok (y, None) /\ ent y 0 = -1/2 /\ ent y 1 = 1/2) /\
  layer_norm D unit (fun d => d) (fun _ v => v) m {| dt := tt; shape := [2; 1]%nat; data := [1; 3] |} None = Err ValueError.
Proof.
  cbn zeta. split.
  - destruct (C70_layer_norm unit unit (fun d => d) (fun _ v => v) (make_layer_norm unit tt (ShInt 2) 3 true true None None)
                {| dt := tt; shape := [2%nat]; data := [1; 3] |} None) as [_ H].
    + reflexivity.
    + intros _. eexists. split; [reflexivity|]. split; reflexivity.
    + intros _. eexists. split; [reflexivity|]. split; reflexivity.
    + destruct (H eq_refl) as (y & Hy & _ & _ & _ & E). exists y. split; [exact Hy|].
      rewrite !E by (cbn; lia). unfold param, Mean, Var, Mean, Sum, ent. cbn.
      replace (((1 - (1 + (3 + 0)) / (1 + 1)) * ((1 - (1 + (3 + 0)) / (1 + 1)) * 1) + ((3 - (1 + (3 + 0)) / (1 + 1)) * ((3 - (1 + (3 + 0)) / (1 + 1)) * 1) + 0)) / (1 + 1) + 3) with (2 * 2) by field.
      rewrite sqrt_square by lra. split; field.
  - reflexivity.
Qed.

(** ** GroupNorm *)
Lemma Mean_from : forall k a n X, Mean a n (fun j => X (k + j)%nat) = Mean (k + a) n X.
Proof. intros. unfold Mean. f_equal. apply Sum_ext. intros. f_equal. lia. Qed.
Lemma Var_from : forall k a n X, Var a n (fun j => X (k + j)%nat) = Var (k + a) n X.
Proof. intros. unfold Var. f_equal. rewrite Mean_from. apply Sum_ext. intros. do 3 f_equal. lia. Qed.
Lemma Mean_ext : forall a n X Y, (forall i, (i < n)%nat -> X (a + i)%nat = Y (a + i)%nat) -> Mean a n X = Mean a n Y.
Proof. intros. unfold Mean. f_equal. now apply Sum_ext. Qed.
Lemma Var_ext : forall a n X Y, (forall i, (i < n)%nat -> X (a + i)%nat = Y (a + i)%nat) -> Var a n X = Var a n Y.
Proof. intros a n X Y H. unfold Var. f_equal. rewrite (Mean_ext a n X Y H). apply Sum_ext. intros. now rewrite H. Qed.
Lemma nth_skipn : forall {A} k (l : list A) j d, nth j (skipn k l) d = nth (k + j) l d.
Proof. induction k; intros [|x l] j d; cbn; auto. destruct j; reflexivity. Qed.
Lemma nth_firstn : forall {A} k (l : list A) j d, (j < k)%nat -> nth j (firstn k l) d = nth j l d.
Proof. induction k; intros [|x l] j d H; cbn; try lia; auto. destruct j; [reflexivity|]. apply IHk. lia. Qed.
Lemma normalise_length : forall eps y, length (normalise eps y) = length y.
Proof. intros. unfold normalise. cbv zeta. apply map_length. Qed.
Lemma normalise_nth : forall eps y i, (i < length y)%nat ->
  nth i (normalise eps y) 0 = Norm 0 (length y) eps (fun j => nth j y 0) i.
Proof.
  intros eps y i Hi. unfold normalise. cbv zeta. rewrite (nth_map_in _ _ _ 0) by exact Hi. rewrite Rmax_right by apply rvar_pos.
  rewrite (rmean_Mean y 0 (fun j => nth j y 0)), (rvar_Var y 0 (fun j => nth j y 0)) by reflexivity. reflexivity.
Qed.
Lemma groups_length : forall eps k g l, length l = (g * k)%nat -> length (concat (map (normalise eps) (pieces g k l))) = (g * k)%nat.
Proof.
  induction g as [|g IH]; intros l Hl; [reflexivity|]. cbn [pieces map concat]. rewrite app_length, normalise_length, firstn_length, IH by (rewrite skipn_length; lia). lia.
Qed.
Lemma groups_nth : forall eps k g l i, length l = (g * k)%nat -> (i < g * k)%nat ->
  nth i (concat (map (normalise eps) (pieces g k l))) 0 = Norm (i / k * k) k eps (fun j => nth j l 0) i.
Proof.
  intros eps k g. induction g as [|g IH]; intros l i Hl Hi; [lia|]. cbn [pieces map concat].
  assert (Lf : length (firstn k l) = k) by (rewrite firstn_length; lia).
  destruct (Nat.lt_ge_cases i k) as [H|H].
  - rewrite app_nth1 by (rewrite normalise_length; lia). rewrite normalise_nth by lia. rewrite Lf. rewrite Nat.div_small, Nat.mul_0_l by exact H.
    unfold Norm. rewrite nth_firstn by exact H.
    rewrite (Mean_ext 0 k _ (fun j => nth j l 0)) by (intros; now apply nth_firstn). rewrite (Var_ext 0 k _ (fun j => nth j l 0)) by (intros; now apply nth_firstn). reflexivity.
  - rewrite app_nth2 by (rewrite normalise_length; lia). rewrite normalise_length, Lf. rewrite IH by (rewrite ?skipn_length; lia).
    assert (E : (i / k * k = k + (i - k) / k * k)%nat).
    { replace i with ((i - k) + 1 * k)%nat at 1 by lia. rewrite Nat.div_add by lia. lia. }
    unfold Norm. rewrite nth_skipn. replace (k + (i - k))%nat with i by lia. rewrite E, <- Mean_from, <- Var_from.
    rewrite (Mean_ext _ k _ (fun j => nth (k + j) l 0)) by (intros; apply nth_skipn). rewrite (Var_ext _ k _ (fun j => nth (k + j) l 0)) by (intros; apply nth_skipn). reflexivity.
Qed.
Lemma bcast_length : forall (l : list R) r, length (flat_map (fun v => repeat v r) l) = (length l * r)%nat.
Proof. induction l; intros; cbn; [reflexivity|]. rewrite app_length, repeat_length, IHl. reflexivity. Qed.
Lemma bcast_nth : forall (l : list R) r i, (i < length l * r)%nat -> nth i (flat_map (fun v => repeat v r) l) 0 = nth (i / r) l 0.
Proof.
  induction l as [|x l IH]; intros r i Hi; cbn [length Nat.mul] in Hi; [lia|]. cbn [flat_map].
  destruct (Nat.lt_ge_cases i r) as [H|H].
  - rewrite app_nth1 by (rewrite repeat_length; lia). rewrite Nat.div_small by exact H. cbn.
    apply (repeat_spec r). apply nth_In. now rewrite repeat_length.
  - rewrite app_nth2 by (rewrite repeat_length; lia). rewrite repeat_length, IH by lia.
    replace i with ((i - r) + 1 * r)%nat at 2 by lia. rewrite Nat.div_add by lia. rewrite Nat.add_1_r. reflexivity.
Qed.

Section Groups.
  Variables (D St : Type) (dd : D) (promote : D -> D) (cast : D -> R -> R).
  Lemma group_norm_gen : forall m x c rest nw nb (st : option St), nw = c \/ nw = 1%nat -> nb = c \/ nb = 1%nat -> wf x -> shape D x = c :: rest -> groups D m <> 0%nat -> Nat.divide (groups D m) c ->
    fits (affine D m) (gweight D m) [nw] -> fits (affine D m) (gbias D m) [nb] ->
    let d := promote (dt D x) in
    let X i := cast d (ent x i) in
    let k := (c / groups D m * size rest)%nat in
    exists y, call_group_norm D St promote cast m x st = Ok (y, st) /\ shape D y = shape D x /\ dt D y = dt D x /\ wf y /\
      forall i, (i < size (shape D x))%nat ->
        ent y i = cast (dt D x) ((X i - Mean (i / k * k) k X) / sqrt (Var (i / k * k) k X + geps D m)
                                 * param (affine D m) (gweight D m) 1 (cast d) (if Nat.eqb nw c then i / size rest else 0)
                                 + param (affine D m) (gbias D m) 0 (cast d) (if Nat.eqb nb c then i / size rest else 0)).
  Proof.
    intros m x c rest nw nb st Hnw Hnb Hx Hs Hg [q Hq] Hw Hb d X k. unfold call_group_norm. rewrite Hs. cbv zeta. fold d.
    destruct (Nat.eqb_spec (groups D m) 0); [contradiction|]. fold k.
    assert (Ek : (groups D m * k = size (shape D x))%nat).
    { unfold k. rewrite Hs, Hq, Nat.div_mul by exact Hg. unfold size at 2. cbn [fold_right]. fold (size rest). ring. }
    rewrite <- Hs. destruct (Nat.eqb_spec (groups D m * k) (size (shape D x))); [|contradiction]. cbn [negb].
    set (xs := map (cast d) (data D x)). assert (L : length xs = (groups D m * k)%nat) by (unfold xs; rewrite map_length, Ek; exact Hx).
    set (out := concat (map (normalise (geps D m)) (pieces (groups D m) k xs))).
    assert (Lo : length out = size (shape D x)) by (unfold out; rewrite groups_length by exact L; exact Ek).
    assert (Eo : forall i, (i < size (shape D x))%nat -> nth i out 0 = Norm (i / k * k) k (geps D m) X i).
    { intros i Hi. unfold out. rewrite groups_nth by lia.
      assert (H0 : forall j, (j < length xs)%nat -> nth j xs 0 = X j)
        by (intros j Hj; unfold xs, X, ent; apply nth_map_in; unfold xs in Hj; now rewrite map_length in Hj).
      assert (Hk : (0 < k)%nat) by nia. pose proof (Nat.mul_div_le i k ltac:(lia)) as H1. pose proof (Nat.div_lt_upper_bound i k (groups D m) ltac:(lia) ltac:(lia)) as H2.
      assert (H3 : forall j, (j < k)%nat -> nth (i / k * k + j) xs 0 = X (i / k * k + j)%nat) by (intros j Hj; apply H0; pose proof (Nat.mul_le_mono_r (S (i / k)) (groups D m) k ltac:(lia)); lia).
      unfold Norm. rewrite H0 by lia. rewrite (Mean_ext _ k _ X H3), (Var_ext _ k _ X H3). reflexivity. }
    assert (Esz : size (shape D x) = (c * size rest)%nat) by (rewrite Hs; reflexivity).
    assert (B : forall p q, q = c \/ q = 1%nat -> shape D p = [q] -> wf p -> exists w, left_broadcast D p c rest = Ok w /\ length w = size (shape D x) /\
                forall i, (i < size (shape D x))%nat -> nth i w 0 = ent p (if Nat.eqb q c then i / size rest else 0)).
    { intros p q' Hq' Hp Hwf. unfold left_broadcast. rewrite Hp. unfold wf in Hwf. rewrite Hp in Hwf. cbn in Hwf. rewrite Nat.mul_1_r in Hwf.
      destruct (Nat.eqb_spec q' c) as [E|E].
      - rewrite E in Hwf. eexists. split; [reflexivity|].
        split; [rewrite bcast_length, Hwf; lia|]. intros i Hi. rewrite bcast_nth by (rewrite Hwf; lia). reflexivity.
      - assert (E1 : q' = 1%nat) by lia. rewrite E1 in Hwf |- *. cbn [Nat.eqb]. eexists. split; [reflexivity|].
        split; [rewrite bcast_length, Hwf; lia|]. intros i Hi. rewrite bcast_nth by (rewrite Hwf; lia). rewrite Nat.div_small by lia. reflexivity. }
    destruct (affine D m) eqn:EA.
    - destruct (Hw eq_refl) as (w & Ew & Hws & Hww). destruct (Hb eq_refl) as (b & Eb & Hbs & Hbw). rewrite Ew, Eb.
      destruct (B w nw Hnw Hws Hww) as (w' & -> & Lw & Nw). destruct (B b nb Hnb Hbs Hbw) as (b' & -> & Lb & Nb). cbn [bind].
      eexists. split; [reflexivity|]. cbn [shape dt]. do 2 (split; [reflexivity|]).
      split; [unfold wf; cbn [shape data]; rewrite map_length, !zip_with_length, !map_length; lia|]. intros i Hi. unfold ent at 1. cbn [data].
      rewrite (nth_map_in _ _ _ 0) by (rewrite !zip_with_length, !map_length; lia). f_equal.
      rewrite !nth_zip_with by (rewrite ?zip_with_length, ?map_length; lia). rewrite !(nth_map_in (cast d) _ _ 0) by lia.
      rewrite Nw, Nb, Eo by exact Hi. unfold param, Norm. ring.
    - cbn [bind]. eexists. split; [reflexivity|]. cbn [shape dt]. do 2 (split; [reflexivity|]).
      split; [unfold wf; cbn; rewrite map_length; exact Lo|]. intros i Hi. unfold ent at 1. cbn [data].
      rewrite (nth_map_in _ _ _ 0) by lia. f_equal. rewrite Eo by exact Hi. unfold param, Norm. ring.
  Qed.
  (** C71. With [g] groups dividing the number of channels and parameters (if any) with one entry per channel: each entry is normalised with
      the mean and variance of its own group, and multiplied by and added to the parameter of its own channel. *)
  Theorem C71_group_norm : forall m x c rest (st : option St), wf x -> shape D x = c :: rest -> groups D m <> 0%nat -> Nat.divide (groups D m) c ->
    fits (affine D m) (gweight D m) [c] -> fits (affine D m) (gbias D m) [c] ->
    let d := promote (dt D x) in
    let X i := cast d (ent x i) in
    let k := (c / groups D m * size rest)%nat in
    exists y, call_group_norm D St promote cast m x st = Ok (y, st) /\ shape D y = shape D x /\ dt D y = dt D x /\ wf y /\
      forall i, (i < size (shape D x))%nat ->
        ent y i = cast (dt D x) ((X i - Mean (i / k * k) k X) / sqrt (Var (i / k * k) k X + geps D m)
                                 * param (affine D m) (gweight D m) 1 (cast d) (i / size rest)
                                 + param (affine D m) (gbias D m) 0 (cast d) (i / size rest)).
  Proof.
    intros m x c rest st Hx Hs Hg Hd Hw Hb d X k.
    destruct (group_norm_gen m x c rest c c st (or_introl eq_refl) (or_introl eq_refl) Hx Hs Hg Hd Hw Hb) as (y & Hy & H1 & H2 & H3 & H4).
    exists y. do 4 (split; [assumption|]). intros i Hi. specialize (H4 i Hi). rewrite Nat.eqb_refl in H4. exact H4.
  Qed.
  (** Parameters with a single entry are used for every channel (see [C71_channels_refuted]). *)
  Theorem C71_one_entry : forall m x c rest (st : option St), wf x -> shape D x = c :: rest -> c <> 1%nat -> groups D m <> 0%nat -> Nat.divide (groups D m) c ->
    fits (affine D m) (gweight D m) [1%nat] -> fits (affine D m) (gbias D m) [1%nat] ->
    let d := promote (dt D x) in
    let X i := cast d (ent x i) in
    let k := (c / groups D m * size rest)%nat in
    exists y, call_group_norm D St promote cast m x st = Ok (y, st) /\ shape D y = shape D x /\ dt D y = dt D x /\ wf y /\
      forall i, (i < size (shape D x))%nat ->
        ent y i = cast (dt D x) ((X i - Mean (i / k * k) k X) / sqrt (Var (i / k * k) k X + geps D m)
                                 * param (affine D m) (gweight D m) 1 (cast d) 0
                                 + param (affine D m) (gbias D m) 0 (cast d) 0).
  Proof.
    intros m x c rest st Hx Hs Hc Hg Hd Hw Hb d X k.
    destruct (group_norm_gen m x c rest 1 1 st (or_intror eq_refl) (or_intror eq_refl) Hx Hs Hg Hd Hw Hb) as (y & Hy & H1 & H2 & H3 & H4).
    exists y. do 4 (split; [assumption|]). intros i Hi. specialize (H4 i Hi). destruct (Nat.eqb_spec 1 c); [congruence|]. exact H4.
  Qed.
  (** Refusals: a scalar, no groups, a number of channels that the groups do not divide (unless the array is empty). *)
  Theorem C71_refuses : forall m x (st : option St),
    (shape D x = [] -> call_group_norm D St promote cast m x st = Err IndexError) /\
    (forall c rest, shape D x = c :: rest -> groups D m = 0%nat -> call_group_norm D St promote cast m x st = Err ZeroDivisionError) /\
    (forall c rest, shape D x = c :: rest -> groups D m <> 0%nat -> size rest <> 0%nat -> ~ Nat.divide (groups D m) c ->
       call_group_norm D St promote cast m x st = Err TypeError).
  Proof.
    intros m x st. unfold call_group_norm. split; [intros ->; reflexivity|]. split; intros c rest ->; cbv zeta.
    - intros ->. reflexivity.
    - intros Hg Hr Hd. destruct (Nat.eqb_spec (groups D m) 0); [contradiction|].
      destruct (Nat.eqb_spec (groups D m * (c / groups D m * size rest)) (size (c :: rest))) as [E|]; [|reflexivity].
      exfalso. apply Hd. exists (c / groups D m)%nat. cbn [size fold_right] in E. fold (size rest) in E.
      apply (Nat.mul_cancel_r _ _ (size rest) Hr). lia.
  Qed.
  (** The constructor: which arguments are accepted, and what is built. *)
  Theorem C71_init : forall g c eps aff od m,
    make_group_norm D dd g c eps aff od = Ok m <->
    (forall n, c = Some n -> g <> 0%nat /\ Nat.divide g n) /\ (aff = true -> c <> None) /\
    m = {| groups := g; channels := c; geps := eps; affine := aff;
           gweight := if aff then match c with Some n => Some {| dt := match od with Some d => d | None => dd end; shape := [n]; data := repeat 1 n |} | None => None end else None;
           gbias := if aff then match c with Some n => Some {| dt := match od with Some d => d | None => dd end; shape := [n]; data := repeat 0 n |} | None => None end else None |}.
  Proof.
    intros g c eps aff od m. unfold make_group_norm, full, size. cbn [fold_right]. destruct c as [n|].
    - destruct (Nat.eqb_spec g 0) as [->|Hg].
      + cbn. split; [discriminate|]. intros [H _]. destruct (H n eq_refl). contradiction.
      + rewrite Nat.mul_1_r. destruct (Nat.eqb_spec (n mod g) 0) as [E|E]; cbn [bind].
        * apply Nat.mod_divide in E; [|exact Hg]. destruct aff; split; intros H.
          -- injection H as <-. split; [intros ? [= <-]; auto|]. split; [discriminate|reflexivity].
          -- destruct H as (_ & _ & ->). reflexivity.
          -- injection H as <-. split; [intros ? [= <-]; auto|]. split; [discriminate|reflexivity].
          -- destruct H as (_ & _ & ->). reflexivity.
        * split; [discriminate|]. intros [H _]. destruct (H n eq_refl) as [_ Hd]. apply Nat.mod_divide in Hd; [contradiction|exact Hg].
    - cbn [bind]. destruct aff; split; intros H; try discriminate.
      + destruct H as (_ & H & _). now destruct (H eq_refl).
      + injection H as <-. split; [discriminate|]. split; [discriminate|reflexivity].
      + destruct H as (_ & _ & ->). reflexivity.
  Qed.
  (** What [__init__] refuses, and how. *)
  Theorem C71_init_errors : forall g c eps aff od e, make_group_norm D dd g c eps aff od = Err e <->
    (e = ZeroDivisionError /\ g = 0%nat /\ c <> None) \/
    (e = ValueError /\ ((exists n, c = Some n /\ g <> 0%nat /\ ~ Nat.divide g n) \/ (c = None /\ aff = true))).
  Proof.
    intros g c eps aff od e. unfold make_group_norm. destruct c as [n|]; cbn [bind].
    - destruct (Nat.eqb_spec g 0) as [Eg|Eg]; cbn [bind].
      + split.
        * intros H. left. repeat split; congruence.
        * intros [(-> & _)|(_ & [(n' & E & H & _)|(H & _)])]; [reflexivity|contradiction|discriminate].
      + destruct (Nat.eqb_spec (n mod g) 0) as [Em|Em]; cbn [bind].
        * assert (HD : Nat.divide g n) by (apply Nat.mod_divide; assumption). split; [destruct aff; discriminate|].
          intros [(_ & H & _)|(_ & [(n' & E & _ & H)|(H & _)])]; [contradiction| |discriminate]. injection E as <-. contradiction.
        * split.
          { intros H. right. split; [congruence|]. left. exists n. split; [reflexivity|]. split; [exact Eg|].
            intros HD. apply Nat.mod_divide in HD; [contradiction|exact Eg]. }
          { intros [(_ & H & _)|(-> & _)]; [contradiction|reflexivity]. }
    - destruct aff; split.
      + intros H. right. split; [congruence|]. right. split; reflexivity.
      + intros [(_ & _ & H)|(-> & _)]; [contradiction|reflexivity].
      + discriminate.
      + intros [(_ & _ & H)|(_ & [(n' & E & _)|(_ & H)])]; [contradiction|discriminate|discriminate].
  Qed.
End Groups.
Print Assumptions C71_group_norm.
Print Assumptions C71_refuses.
Print Assumptions C71_init.
(** One group: GroupNorm without parameters is LayerNorm without parameters. *)
Theorem C71_one_group : forall D St dd promote cast m x s (st : option St), wf x -> shape D x <> [] ->
  make_group_norm D dd 1 None (neps D s) false None = Ok m -> use_weight D s = false -> use_bias D s = false -> nshape D s = shape D x ->
  exists y z, call_group_norm D St promote cast m x st = Ok (y, st) /\ layer_norm D St promote cast s x st = Ok (z, st) /\
    forall i, (i < size (shape D x))%nat -> ent y i = ent z i.
Proof.
  intros D St dd promote cast m x s st Hx Hs Hm HW HB HN. apply C71_init in Hm as (_ & _ & ->).
  destruct (shape D x) as [|c rest] eqn:Es; [contradiction|].
  destruct (C71_group_norm D St promote cast {| groups := 1; channels := None; geps := neps D s; affine := false; gweight := None; gbias := None |} x c rest st Hx Es)
    as (y & Hy & _ & _ & _ & Ey); try discriminate.
  { exists c. cbn. lia. }
  destruct (C70_layer_norm D St promote cast s x st Hx) as [_ H]; try (intros E; congruence).
  rewrite Es in H. destruct (H (eq_sym HN)) as (z & Hz & _ & _ & _ & Ez). exists y, z. split; [exact Hy|]. split; [exact Hz|].
  intros i Hi. rewrite Ey by (rewrite Es; exact Hi). rewrite Ez by exact Hi. cbn [affine geps groups gweight gbias param]. rewrite HW, HB. unfold param. f_equal. f_equal. f_equal.
  rewrite Nat.div_1_r. change (size (c :: rest)) with (c * size rest)%nat in *. rewrite Nat.div_small by exact Hi. reflexivity.
Qed.
Print Assumptions C71_one_group.
(** Nothing checks that the input has the declared number of channels: with one declared channel, parameters are broadcast over any
    number of channels; without parameters the declaration is ignored. *)
Theorem C71_channels_refuted : exists m1 m2 x y1 y2,
  make_group_norm unit tt 1 (Some 1%nat) 1 true None = Ok m1 /\ make_group_norm unit tt 2 (Some 4%nat) 1 false None = Ok m2 /\ shape unit x = [2%nat] /\
  call_group_norm unit unit (fun d => d) (fun _ v => v) m1 x None = Ok (y1, None) /\
  call_group_norm unit unit (fun d => d) (fun _ v => v) m2 x None = Ok (y2, None).
Proof.
  do 2 eexists. exists {| dt := tt; shape := [2%nat]; data := [1; 3] |}. do 2 eexists. do 3 (split; [reflexivity|]). split; reflexivity.
Qed.
Print Assumptions C71_channels_refuted.
Theorem C71_channels_partial : forall D St promote cast m x c rest n a (st : option St), shape D x = c :: rest -> affine D m = true ->
  gweight D m = Some a -> shape D a = [n] -> n <> 1%nat -> n <> c -> forall y, call_group_norm D St promote cast m x st <> Ok y.
Proof.
  intros D St promote cast m x c rest n a st Hs HA HW Ha H1 Hc y H. unfold call_group_norm in H. rewrite Hs in H. cbv zeta in H.
  destruct (Nat.eqb_spec (groups D m) 0); [discriminate|]. destruct (negb _); [discriminate|]. rewrite HA, HW in H. destruct (gbias D m); [|discriminate].
  unfold left_broadcast at 1 in H. rewrite Ha in H. destruct (Nat.eqb_spec n c); [contradiction|]. destruct (Nat.eqb_spec n 1); [contradiction|]. discriminate.
Qed.
Print Assumptions C71_channels_partial.
(** Where the groups divide the channels of the input, it is the broadcasting of the weights that raises. *)
Theorem C71_channels_error : forall D St dd promote cast g n eps od m x c rest (st : option St), make_group_norm D dd g (Some n) eps true od = Ok m ->
  shape D x = c :: rest -> Nat.divide g c -> n <> 1%nat -> n <> c -> call_group_norm D St promote cast m x st = Err ValueError.
Proof.
  intros D St dd promote cast g n eps od m x c rest st Hm Hs Hd H1 Hc. apply C71_init in Hm as (Hg & _ & ->). destruct (Hg n eq_refl) as [Hg0 _].
  unfold call_group_norm. rewrite Hs. cbv zeta. cbn [groups affine gweight gbias]. destruct (Nat.eqb_spec g 0); [contradiction|].
  replace (g * (c / g * size rest))%nat with (size (c :: rest)).
  - rewrite Nat.eqb_refl. cbn [negb]. unfold left_broadcast. cbn [shape]. destruct (Nat.eqb_spec n c); [contradiction|]. destruct (Nat.eqb_spec n 1); [contradiction|]. reflexivity.
  - destruct Hd as [q ->]. rewrite Nat.div_mul by exact Hg0. cbn [size fold_right]. fold (size rest). lia.
Qed.
Print Assumptions C71_channels_error.
Example C71_ex : exists m y, make_group_norm unit tt 2 (Some 4%nat) 3 true None = Ok m /\
  call_group_norm unit unit (fun d => d) (fun _ v => v) m {| dt := tt; shape := [4%nat]; data := [1; 3; 7; 7] |} None = Ok (y, None) /\
  ent y 1 = 1/2 /\ ent y 2 = 0.
Proof.
  exists {| groups := 2; channels := Some 4%nat; geps := 3; affine := true; gweight := Some (full unit tt [4%nat] None 1); gbias := Some (full unit tt [4%nat] None 0) |}.
  destruct (C71_group_norm unit unit (fun d => d) (fun _ v => v)
     {| groups := 2; channels := Some 4%nat; geps := 3; affine := true; gweight := Some (full unit tt [4%nat] None 1); gbias := Some (full unit tt [4%nat] None 0) |}
     {| dt := tt; shape := [4%nat]; data := [1; 3; 7; 7] |} 4%nat [] None) as (y & Hy & _ & _ & _ & E).
  - reflexivity.
  - reflexivity.
  - discriminate.
  - exists 2%nat. reflexivity.
  - intros _. eexists. split; [reflexivity|]. split; reflexivity.
  - intros _. eexists. split; [reflexivity|]. split; reflexivity.
  - exists y. split; [reflexivity|]. split; [exact Hy|]. rewrite !E by (cbn; lia). unfold param, Mean, Var, Mean, Sum, ent. cbn. split.
    + replace (((1 - (1 + (3 + 0)) / (1 + 1)) * ((1 - (1 + (3 + 0)) / (1 + 1)) * 1) + ((3 - (1 + (3 + 0)) / (1 + 1)) * ((3 - (1 + (3 + 0)) / (1 + 1)) * 1) + 0)) / (1 + 1) + 3) with (2 * 2) by field.
      rewrite sqrt_square by lra. field.
    + replace (7 - (7 + (7 + 0)) / (1 + 1)) with 0 by field. unfold Rdiv. ring.
Qed.
Print Assumptions C71_one_entry.
Print Assumptions C71_init_errors.
