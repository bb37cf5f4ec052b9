(** C130: the diffusion example. *)
From Coq Require Import Lia QArith Reals Lra FinFun.
From Verif Require Import Base Conv_Model Diffusion_Model.
Local Open Scope list_scope.
Local Notation length := List.length.

(** ** Shapes *)
Section Shapes.
  Local Open Scope Z_scope.
  Lemma patch_conv n p : 0 <= n -> 0 < p -> out_size n 0 0 p p 1 1 = n / p.
  Proof.
    intros Hn Hp. unfold out_size, dil. destruct (Z.eqb_spec n 0) as [->|N].
    - destruct (Z.eqb_spec p 0); [lia|]. rewrite Z.div_0_l by lia. assert ((0 + 0 + 0 - ((p - 1) * 1 + 1)) / p = -1); [|lia]. symmetry. apply (Z.div_unique _ _ _ 0); lia.
    - destruct (Z.eqb_spec p 0); [lia|]. replace ((n - 1) * 1 + 1 + 0 + 0 - ((p - 1) * 1 + 1)) with (n + (-1) * p) by lia. rewrite Z.div_add by lia. pose proof (Z.div_pos n p). lia.
  Qed.
  Lemma patch_convt n p : 0 < n -> 0 < p -> out_size n (p - 1) (p - 1) p 1 p 1 = n * p.
  Proof.
    intros Hn Hp. unfold out_size, dil. destruct (Z.eqb_spec n 0); [lia|]. destruct (Z.eqb_spec p 0); [lia|]. rewrite Z.div_1_r. nia.
  Qed.
  Lemma block_shape m c n : mixer_block m (c, n) = if (c =? hidden_size m) && (n =? num_patches m) then Ok (c, n) else Err ValueError.
  Proof.
    unfold mixer_block, layer_norm, mlp_rows, add_shape, swap. cbn [fst snd]. destruct (Z.eqb_spec c (hidden_size m)) as [->|N]; cbn [andb bind]; [|reflexivity].
    destruct (Z.eqb_spec n (num_patches m)) as [->|N]; [|reflexivity]. cbn [bind fst snd]. repeat (rewrite ?Z.eqb_refl; cbn [andb bind fst snd]). reflexivity.
  Qed.
  Lemma blocks_shape m : forall k, blocks k m (hidden_size m, num_patches m) = Ok (hidden_size m, num_patches m).
  Proof. induction k as [|k IH]; [reflexivity|]. cbn [blocks]. rewrite block_shape, !Z.eqb_refl. cbn [andb bind]. exact IH. Qed.
  (** A mixer made for images of some size takes exactly the images with its channels and number of patches (whatever their sizes), and returns its channels with
      sizes rounded down to multiples of the patch size: an image of the size it was made for gives one of that size. *)
  Theorem C130_mixer : forall c h w p hidden nb m, 0 < h -> 0 < w -> 0 < p -> make_mixer (c, h, w) p hidden nb = Ok m ->
    call_mixer m (c, h, w) = Ok (c, h, w) /\
    forall c' h' w', 0 < h' -> 0 < w' -> match call_mixer m (c', h', w') with
      | Ok s => c' = c /\ (h' / p) * (w' / p) = (h / p) * (w / p) /\ s = (c, h' / p * p, w' / p * p)
      | Err _ => c' <> c \/ (h' / p) * (w' / p) <> (h / p) * (w / p)
      end.
  Proof.
    intros c h w p hidden nb m Hh Hw Hp M. unfold make_mixer in M. destruct (Z.eqb_spec p 0); [discriminate|]. destruct (Z.eqb_spec (h mod p) 0) as [Mh|]; [|discriminate]. destruct (Z.eqb_spec (w mod p) 0) as [Mw|]; [|discriminate]. cbn [negb] in M. injection M as <-.
    assert (G : forall c' h' w', 0 < h' -> 0 < w' -> call_mixer (mk_mixer c hidden p (h / p * (w / p)) nb) (c', h', w') =
      if c' =? c then if (h' / p) * (w' / p) =? (h / p) * (w / p) then Ok (c, h' / p * p, w' / p * p) else Err ValueError else Err TypeError).
    { intros c' h' w' Hh' Hw'. unfold call_mixer. cbn [input_size hidden_size patch_size num_patches num_blocks]. rewrite !patch_conv by lia.
      replace (c' + 1 =? c + 1) with (c' =? c) by (destruct (Z.eqb_spec c' c), (Z.eqb_spec (c' + 1) (c + 1)); try reflexivity; lia). destruct (c' =? c); cbn [negb]; [|reflexivity].
      set (m := mk_mixer c hidden p (h / p * (w / p)) nb).
      destruct (Z.eqb_spec (h' / p * (w' / p)) (h / p * (w / p))) as [E|E].
      - rewrite E. rewrite (blocks_shape m nb : blocks nb m (hidden, h / p * (w / p)) = _). cbn [bind]. unfold layer_norm. cbn [m hidden_size num_patches fst snd]. rewrite !Z.eqb_refl. cbn [andb bind snd negb]. rewrite Z.eqb_refl. cbn [negb].
        assert (Ph : 0 < h / p) by (apply Z.div_str_pos; split; [lia|apply Z.divide_pos_le; [lia|]; apply Z.mod_divide; assumption]). assert (Pw : 0 < w / p) by (apply Z.div_str_pos; split; [lia|apply Z.divide_pos_le; [lia|]; apply Z.mod_divide; assumption]).
        assert (P0 : 0 <= h' / p) by (apply Z.div_pos; lia). assert (P1 : 0 <= w' / p) by (apply Z.div_pos; lia).
        assert (0 < h' / p * (w' / p)) by (rewrite E; apply Z.mul_pos_pos; assumption). rewrite !patch_convt by (first [lia | apply Z.le_neq; split; [assumption|intros X; rewrite <- X in *; lia]]). reflexivity.
      - destruct nb as [|nb]; [cbn [blocks bind]; unfold layer_norm; cbn [m fst snd hidden_size num_patches]; rewrite Z.eqb_refl; destruct (Z.eqb_spec (h' / p * (w' / p)) (h / p * (w / p))); [contradiction|reflexivity]|].
        cbn [blocks]. rewrite block_shape. cbn [m hidden_size num_patches]. rewrite Z.eqb_refl. destruct (Z.eqb_spec (h' / p * (w' / p)) (h / p * (w / p))); [contradiction|reflexivity]. }
    split.
    - rewrite G by assumption. rewrite !Z.eqb_refl. assert (D : forall k, k mod p = 0 -> k / p * p = k) by (intros k Hk; pose proof (Z.div_mod k p); lia). rewrite !D by assumption. reflexivity.
    - intros c' h' w' Hh' Hw'. rewrite G by assumption. destruct (Z.eqb_spec c' c); [|left; assumption]. destruct (Z.eqb_spec (h' / p * (w' / p)) (h / p * (w / p))); [repeat split; assumption|right; assumption].
  Qed.
End Shapes.
Print Assumptions C130_mixer.
Example C130_mixer_ex : exists m, make_mixer (1, 28, 28)%Z 4%Z 64%Z 4 = Ok m /\ call_mixer m (1, 28, 28)%Z = Ok (1, 28, 28)%Z /\ call_mixer m (1, 31, 29)%Z = Ok (1, 28, 28)%Z /\ call_mixer m (1, 32, 28)%Z = Err ValueError.
Proof. eexists. split; [reflexivity|]. repeat split. Qed.

(** ** Noise and its score *)
Section Losses.
  Local Open Scope R_scope.
  Variable int_beta : R -> R.
  Lemma var_pos t : 0 < var_of int_beta t.
  Proof. unfold var_of. pose proof (Rmax_r (1 - exp (- int_beta t)) (1 / 100000)). lra. Qed.
  Lemma std_pos t : 0 < std_of int_beta t.
  Proof. apply sqrt_lt_R0, var_pos. Qed.
  Lemma std_sq t : std_of int_beta t * std_of int_beta t = var_of int_beta t.
  Proof. apply sqrt_sqrt. left. apply var_pos. Qed.
  Lemma half_sq t : exp (- (1 / 2) * int_beta t) * exp (- (1 / 2) * int_beta t) = exp (- int_beta t).
  Proof. rewrite <- exp_plus. f_equal. lra. Qed.
End Losses.
(** The noise preserves variance: the factor of the data and the standard deviation of the noise have squares that sum to 1, except close to [t = 0], where the sum is more. *)
Theorem C130_variance : forall int_beta t, let c := (exp (- (1 / 2) * int_beta t))%R in let s := std_of int_beta t in
  (0 < s /\ 1 <= c * c + s * s /\ (c * c + s * s = 1 <-> exp (- int_beta t) <= 99999 / 100000) /\ forall x z, noised int_beta t x z = c * x + s * z)%R.
Proof.
  intros ib t c s. split; [apply std_pos|]. assert (E : (c * c + s * s = exp (- ib t) + Rmax (1 - exp (- ib t)) (1 / 100000))%R) by (unfold c, s; rewrite half_sq, std_sq; reflexivity). rewrite E. split; [|split].
  - pose proof (Rmax_l (1 - exp (- ib t)) (1 / 100000)). lra.
  - destruct (Rle_dec (1 / 100000) (1 - exp (- ib t))) as [H|H]; [rewrite Rmax_left by lra; lra|rewrite Rmax_right by lra; lra].
  - intros x z. unfold noised, mean_of, c, s. lra.
Qed.
Print Assumptions C130_variance.
(** What the model is trained to predict is the score of the noised data: the derivative, with respect to [y], of the logarithm of the normal density with mean [mean_of t x] and variance [var_of t]. *)
Theorem C130_score : forall int_beta t x z, let y := noised int_beta t x z in let v := var_of int_beta t in
  (- (z / std_of int_beta t) = - ((y - mean_of int_beta t x) / v) /\
   forall k, derivable_pt_lim (fun y => k - (y - mean_of int_beta t x) * (y - mean_of int_beta t x) / (2 * v)) y (- (z / std_of int_beta t)))%R.
Proof.
  intros ib t x z y v. pose proof (std_pos ib t) as P. pose proof (std_sq ib t) as Q. fold v in Q. pose proof (var_pos ib t) as V. fold v in V.
  assert (E : (- (z / std_of ib t) = - ((y - mean_of ib t x) / v))%R) by (unfold y, noised; rewrite <- Q; field; lra).
  split; [exact E|]. intros k. rewrite E. set (m := mean_of ib t x).
  assert (D : derivable_pt_lim (fun u => (k - (u - m) * (u - m) / (2 * v)))%R y (0 - (((1 - 0) * (y - m) + (y - m) * (1 - 0)) / (2 * v)))%R).
  { apply derivable_pt_lim_minus; [apply derivable_pt_lim_const|].
    assert (D1 : derivable_pt_lim (fun u => (u - m))%R y (1 - 0)%R) by (apply derivable_pt_lim_minus; [apply derivable_pt_lim_id|apply derivable_pt_lim_const]).
    pose proof (derivable_pt_lim_mult _ _ _ _ _ D1 D1) as D2. pose proof (derivable_pt_lim_mult _ _ _ _ _ D2 (derivable_pt_lim_const (/ (2 * v)) y)) as D3.
match type of D3 with derivable_pt_lim _ _ ?l => replace (((1 - 0) * (y - m) + (y - m) * (1 - 0)) / (2 * v))%R with l; [exact D3|] end. unfold mult_fct, fct_cte. field. lra. }
  replace (- ((y - m) / v))%R with (0 - (((1 - 0) * (y - m) + (y - m) * (1 - 0)) / (2 * v)))%R by (field; lra). exact D.
Qed.
Print Assumptions C130_score.
(** The loss is nonnegative if the weight is, and for positive weight zero exactly if the prediction is the score at each pixel. *)
Lemma rsum_nonneg l : (Forall (fun x => 0 <= x) l -> 0 <= fold_right Rplus 0 l /\ (fold_right Rplus 0 l = 0 <-> Forall (fun x => x = 0) l))%R.
Proof.
  induction l as [|x l IH]; intros H; [cbn; split; [lra|split; [constructor|reflexivity]]|]. apply Forall_cons_iff in H as [Hx Hl]. destruct (IH Hl) as [I1 I2]. cbn [fold_right]. split; [lra|]. rewrite Forall_cons_iff, <- I2. split; [intros; split; lra|intros [-> ->]; lra].
Qed.
Theorem C130_loss : forall int_beta model weight data noise t, data <> [] -> length noise = length data ->
  length (model t (zipR (noised int_beta t) data noise)) = length data -> (0 < weight t)%R ->
  (0 <= single_loss int_beta model weight data noise t)%R /\
  (single_loss int_beta model weight data noise t = 0%R <-> model t (zipR (noised int_beta t) data noise) = map (fun z => (- (z / std_of int_beta t))%R) noise).
Proof.
  intros ib model weight data noise t Hd Hl Hp Hw. unfold single_loss. set (pred := model t _) in *. clearbody pred. set (s := std_of ib t).
  assert (Hlp : length pred = length noise) by congruence. assert (Nn : noise <> []) by (destruct noise; [destruct data; [congruence|discriminate]|discriminate]).
  set (sq := zipR _ pred noise). assert (Ls : length sq = length noise).
  { unfold sq. clear - Hlp. revert noise Hlp. induction pred as [|p pred IH]; intros [|z noise] H; try discriminate; [reflexivity|]. cbn in *. f_equal. apply IH. congruence. }
  assert (Nn2 : Forall (fun x => (0 <= x)%R) sq).
  { unfold sq. clear. revert noise. induction pred as [|p pred IH]; intros [|z noise]; try constructor; [|apply IH]. apply Rle_0_sqr. }
  assert (Z : Forall (fun x => x = 0%R) sq <-> pred = map (fun z => (- (z / s))%R) noise).
  { unfold sq. clear - Hlp. revert noise Hlp. induction pred as [|p pred IH]; intros [|z noise] H; try discriminate; [split; constructor|]. cbn [zipR map]. rewrite Forall_cons_iff, IH by (cbn in H; congruence). split.
    - intros [E ->]. f_equal. apply Rsqr_0_uniq in E. fold s in E. lra.
    - intros E. injection E as E1 E2. split; [|exact E2]. rewrite E1. fold s. ring. }
  destruct (rsum_nonneg sq Nn2) as [S1 S2]. unfold rmean. rewrite Ls. assert (LP : (0 < INR (length noise))%R) by (apply lt_0_INR; destruct noise; [congruence|cbn; lia]). assert (IP : (0 < / INR (length noise))%R) by (apply Rinv_0_lt_compat; exact LP). split.
  - apply Rmult_le_pos; [lra|]. apply Rmult_le_pos; lra.
  - rewrite <- Z, <- S2. split; [|intros ->; unfold Rdiv; ring]. intros E. apply Rmult_integral in E as [E|E]; [lra|]. apply Rmult_integral in E as [E|E]; [exact E|lra].
Qed.
Print Assumptions C130_loss.
(** Times are one in each of [batch_size] equal parts of the interval. *)
Theorem C130_times : forall t1 b u, (0 < t1)%R -> (forall i, (i < b)%nat -> (0 <= u i < t1 / INR b)%R) -> length (times t1 b u) = b /\
  forall i, (i < b)%nat -> (t1 * INR i / INR b <= nth i (times t1 b u) 0 < t1 * INR (S i) / INR b)%R /\ (0 <= nth i (times t1 b u) 0 < t1)%R.
Proof.
  intros t1 b u H1 Hu. split; [unfold times; rewrite map_length, seq_length; reflexivity|]. intros i Hi. unfold times.
  rewrite (nth_indep _ 0%R (u 0%nat + t1 / INR b * INR 0)%R) by (rewrite map_length, seq_length; exact Hi). rewrite (map_nth (fun i => (u i + t1 / INR b * INR i)%R)). rewrite seq_nth by exact Hi. cbn [Nat.add].
  specialize (Hu i Hi). assert (B : (0 < INR b)%R) by (apply lt_0_INR; lia). assert (IB : (0 < / INR b)%R) by (apply Rinv_0_lt_compat; exact B). rewrite S_INR.
  assert (A : (t1 * INR i / INR b = t1 / INR b * INR i)%R) by (field; lra). assert (A2 : (t1 * (INR i + 1) / INR b = t1 / INR b * INR i + t1 / INR b)%R) by (field; lra). rewrite A, A2. pose proof (pos_INR i) as Pi.
  assert (P : (0 <= t1 / INR b * INR i)%R) by (apply Rmult_le_pos; [|exact Pi]; left; apply Rmult_lt_0_compat; assumption).
  split; [lra|]. split; [lra|]. assert (L : (INR i + 1 <= INR b)%R) by (rewrite <- S_INR; apply le_INR; lia). assert (t1 / INR b * INR i + t1 / INR b <= t1)%R; [|lra].
  replace (t1 / INR b * INR i + t1 / INR b)%R with ((INR i + 1) * (t1 / INR b))%R by ring. replace t1 with (INR b * (t1 / INR b))%R at 2 by (field; lra). apply Rmult_le_compat_r; [|exact L]. left. apply Rmult_lt_0_compat; assumption.
Qed.
Print Assumptions C130_times.
(** Sampling: given the true score, the differential equation that is solved backwards in time has the noising of a data point, with fixed noise, as a solution. *)
Theorem C130_sampling : forall int_beta beta x z t, derivable_pt_lim int_beta t (beta t) -> (1 / 100000 < 1 - exp (- int_beta t))%R -> 
  derivable_pt_lim (fun t => exp (- (1 / 2) * int_beta t) * x + sqrt (1 - exp (- int_beta t)) * z)%R t
    (drift beta (fun t y => - ((y - mean_of int_beta t x) / var_of int_beta t)) t (noised int_beta t x z))%R.
Proof.
  intros ib beta x z t D H.
  assert (V : var_of ib t = (1 - exp (- ib t))%R) by (unfold var_of; rewrite Rmax_left by lra; reflexivity).
  assert (P : (0 < 1 - exp (- ib t))%R) by lra. pose proof (sqrt_lt_R0 _ P) as SP. pose proof (sqrt_sqrt (1 - exp (- ib t)) (Rlt_le _ _ P)) as SS.
  unfold drift. unfold noised, std_of. rewrite V. unfold mean_of. set (s := sqrt (1 - exp (- ib t))) in *. set (c := exp (- (1 / 2) * ib t)) in *.
  assert (CC : (c * c = exp (- ib t))%R) by (unfold c; apply half_sq).
  assert (Dc : derivable_pt_lim (fun t => exp (- (1 / 2) * ib t))%R t (c * (- (1 / 2) * beta t))%R).
  { apply (derivable_pt_lim_comp (fun t => (- (1 / 2) * ib t)%R) exp); [apply derivable_pt_lim_scal; exact D|apply derivable_pt_lim_exp]. }
  assert (De : derivable_pt_lim (fun t => exp (- ib t))%R t (exp (- ib t) * (- beta t))%R).
  { apply (derivable_pt_lim_comp (fun t => (- ib t)%R) exp); [apply derivable_pt_lim_opp; exact D|apply derivable_pt_lim_exp]. }
  assert (Dv : derivable_pt_lim (fun t => 1 - exp (- ib t))%R t (0 - exp (- ib t) * (- beta t))%R) by (apply derivable_pt_lim_minus; [apply derivable_pt_lim_const|exact De]).
  assert (Ds : derivable_pt_lim (fun t => sqrt (1 - exp (- ib t)))%R t (/ (2 * s) * (0 - exp (- ib t) * (- beta t)))%R).
  { apply (derivable_pt_lim_comp (fun t => (1 - exp (- ib t))%R) sqrt); [exact Dv|apply derivable_pt_lim_sqrt; exact P]. }
  assert (Dt : derivable_pt_lim (fun t => exp (- (1 / 2) * ib t) * x + sqrt (1 - exp (- ib t)) * z)%R t
    ((c * (- (1 / 2) * beta t) * x + c * 0) + (/ (2 * s) * (0 - exp (- ib t) * (- beta t)) * z + s * 0))%R).
  { apply derivable_pt_lim_plus.
    - apply (derivable_pt_lim_mult (fun t => exp (- (1 / 2) * ib t)) (fun _ => x) t _ 0 Dc (derivable_pt_lim_const x t)).
    - apply (derivable_pt_lim_mult (fun t => sqrt (1 - exp (- ib t))) (fun _ => z) t _ 0 Ds (derivable_pt_lim_const z t)). }
  match goal with |- derivable_pt_lim _ _ ?r => match type of Dt with derivable_pt_lim _ _ ?r' => replace r with r'; [exact Dt|] end end.
  rewrite <- SS. assert (E1 : (exp (- ib t) = 1 - s * s)%R) by lra. rewrite E1. field. lra.
Qed.
Print Assumptions C130_sampling.

(** ** Keys *)
Local Open Scope nat_scope.
Definition step_key (key : key_path) (t : nat) : key_path := key ++ repeat (1, 0) t.
Definition draws (k : step_keys) : list key_path := time_key k :: loss_keys k.
Lemma train_keys_ok b : forall steps key, train_keys steps b key =
  Some (map (fun t => mk_step_keys (step_key key t ++ [(2, 0)]) (map (fun i => step_key key t ++ [(2, 1); (b, i)]) (seq 0 b))) (seq 0 steps)).
Proof.
  induction steps as [|s IH]; intros key; [reflexivity|]. cbn [train_keys batch_keys split seq map]. rewrite IH. cbn [option_map seq map]. f_equal. unfold step_key. cbn [repeat]. rewrite app_nil_r. f_equal.
  - f_equal. apply map_ext. intros i. rewrite <- app_assoc. reflexivity.
  - rewrite <- seq_shift, map_map. apply map_ext. intros t. cbn [repeat]. rewrite <- !app_assoc. reflexivity.
Qed.
Lemma zeros_inj (a b : nat) (u v : key_path) : (forall x l, u = x :: l -> fst x = 2) -> (forall x l, v = x :: l -> fst x = 2) -> u <> [] -> v <> [] -> repeat (1, 0) a ++ u = repeat (1, 0) b ++ v -> a = b /\ u = v.
Proof.
  revert b. induction a as [|a IH]; intros [|b] Hu Hv Nu Nv E; cbn [repeat app] in E.
  - split; [reflexivity|exact E].
  - exfalso. specialize (Hu _ _ E). discriminate.
  - exfalso. symmetry in E. specialize (Hv _ _ E). discriminate.
  - injection E as E. destruct (IH b Hu Hv Nu Nv E) as [-> ->]. split; reflexivity.
Qed.
Lemma NoDup_flat {A B} (f : A -> list B) l : NoDup l -> (forall x, In x l -> NoDup (f x)) -> (forall x y b, In x l -> In y l -> In b (f x) -> In b (f y) -> x = y) -> NoDup (flat_map f l).
Proof.
  induction l as [|x l IH]; intros N F D; [constructor|]. apply NoDup_cons_iff in N as [N1 N2]. cbn [flat_map].
  assert (X : forall a b : list B, NoDup a -> NoDup b -> (forall z, In z a -> ~ In z b) -> NoDup (a ++ b)).
  { induction a as [|z a IHa]; intros b Na Nb Dj; [exact Nb|]. apply NoDup_cons_iff in Na as [Na1 Na2]. cbn [app]. constructor; [|apply IHa; [exact Na2|exact Nb|intros w Hw; apply Dj; right; exact Hw]]. intros I. apply in_app_or in I as [I|I]; [contradiction|]. exact (Dj z (or_introl eq_refl) I). }
  apply X; [apply F; left; reflexivity|apply IH; [exact N2|intros y Hy; apply F; right; exact Hy|intros y z b Hy Hz; apply D; right; assumption]|].
  intros b Hb I. apply in_flat_map in I as (y & Hy & Hb'). assert (x = y) by (apply (D x y b); [left; reflexivity|right; exact Hy|exact Hb|exact Hb']). subst. contradiction.
Qed.
(** If keys of splits into different numbers are unrelated, no two draws of training are from one key. *)
Theorem C130_keys : forall steps b key, exists ks, train_keys steps b key = Some ks /\ length ks = steps /\ Forall (fun k => length (loss_keys k) = b) ks /\ NoDup (flat_map draws ks).
Proof.
  intros steps b key. eexists. split; [apply train_keys_ok|]. split; [rewrite map_length, seq_length; reflexivity|]. split.
  - apply Forall_forall. intros k Hk. apply in_map_iff in Hk as (t & <- & _). cbn. rewrite map_length, seq_length. reflexivity.
  - rewrite flat_map_concat_map, map_map, <- flat_map_concat_map. apply NoDup_flat; [apply seq_NoDup| |].
    + intros t _. unfold draws. cbn [time_key loss_keys]. constructor.
      * intros I. apply in_map_iff in I as (i & E & _). apply app_inv_head in E. discriminate.
      * apply Injective_map_NoDup; [|apply seq_NoDup]. intros i j E. apply app_inv_head in E. injection E as E. exact E.
    + intros t t' k _ _ H1 H2. unfold draws in *. cbn [time_key loss_keys] in *. unfold step_key in *.
      assert (Sh : forall t, In k (((key ++ repeat (1, 0) t) ++ [(2, 0)]) :: map (fun i => (key ++ repeat (1, 0) t) ++ [(2, 1); (b, i)]) (seq 0 b)) -> exists u, k = key ++ repeat (1, 0) t ++ u /\ u <> [] /\ forall x l, u = x :: l -> fst x = 2).
      { intros t0 [<-|I]; [exists [(2, 0)]; rewrite <- app_assoc; split; [reflexivity|split; [discriminate|intros x l E; injection E as <- _; reflexivity]]|]. apply in_map_iff in I as (i & <- & _). exists [(2, 1); (b, i)]. rewrite <- app_assoc. split; [reflexivity|split; [discriminate|intros x l E; injection E as <- _; reflexivity]]. }
      apply Sh in H1 as (u & E1 & N1 & F1). apply Sh in H2 as (v & E2 & N2 & F2). rewrite E1 in E2. apply app_inv_head in E2. apply (zeros_inj t t' u v F1 F2 N1 N2 E2).
Qed.
Print Assumptions C130_keys.
(** But if the keys of a split do not depend on how many are asked for (JAX with [jax_threefry_partitionable]), the key from which a step draws its times is the key that the
    next step splits. *)
Definition forget (k : key_path) : list nat := map snd k.
Theorem C130_keys_partitionable_refuted : forall steps b key t k, t < steps -> (exists ks, train_keys steps b key = Some ks /\ nth_error ks t = Some k) ->
  forget (time_key k) = forget (step_key key (S t)).
Proof.
  intros steps b key t k Ht (ks & E & N). rewrite train_keys_ok in E. injection E as <-.
  rewrite nth_error_map in N. destruct (nth_error (seq 0 steps) t) as [t'|] eqn:Et; [|discriminate]. cbn in N. injection N as <-.
  assert (t' = t). { apply nth_error_nth with (d := 0) in Et. rewrite seq_nth in Et by exact Ht. cbn in Et. congruence. } subst t'.
  unfold forget, step_key. cbn [time_key]. rewrite !map_app. rewrite <- app_assoc. f_equal. replace (S t) with (t + 1) by lia. rewrite repeat_app, map_app. reflexivity.
Qed.
Print Assumptions C130_keys_partitionable_refuted.
Example C130_keys_ex : exists ks, train_keys 2 2 [] = Some ks /\ flat_map draws ks = [[(2, 0)]; [(2, 1); (2, 0)]; [(2, 1); (2, 1)]; [(1, 0); (2, 0)]; [(1, 0); (2, 1); (2, 0)]; [(1, 0); (2, 1); (2, 1)]].
Proof. eexists. split; reflexivity. Qed.

(** ** Printed losses *)
Definition qsum (l : list Q) : Q := fold_left Qplus l 0%Q.
Definition average (l : list Q) : Q := (qsum l / inject_Z (Z.of_nat (length l)))%Q.
(** Each loss counts in exactly one of the printed averages: they are the averages of consecutive nonempty parts of training, each ending with the step printed; printed are the multiples of
    [print_every] and the last step. *)
Lemma prints_from pe n : 0 < pe -> forall values step opened p, total_value p = qsum opened -> total_size p = length opened -> length opened <= step -> step + length values = n ->
  exists windows p', steps_from pe n step values p = Ok p' /\ printed p' = printed p ++ map (fun w => (fst w, average (snd w))) windows /\
    (values <> [] -> List.concat (map snd windows) = opened ++ values) /\ Forall (fun w => snd w <> []) windows /\
    map fst windows = List.filter (fun s => (s mod pe =? 0) || (S s =? n)) (seq step (length values)) /\
    (forall l w r, windows = l ++ w :: r -> S (fst w) = step - length opened + length (List.concat (map snd (l ++ [w])))).
Proof.
  intros Hpe. induction values as [|v vs IH]; intros step opened p Ht Hs Ho Hn.
  - exists [], p. cbn [steps_from]. split; [reflexivity|]. split; [rewrite app_nil_r; reflexivity|]. split; [congruence|]. split; [constructor|]. split; [reflexivity|]. intros [|x l] w r E; discriminate.
  - cbn [steps_from]. unfold one_step. destruct (Nat.eqb_spec pe 0); [lia|]. rewrite Ht, Hs. cbn [length] in Hn.
    assert (Q1 : (qsum opened + v)%Q = qsum (opened ++ [v])) by (unfold qsum; rewrite fold_left_app; reflexivity).
    assert (L1 : S (length opened) = length (opened ++ [v])) by (rewrite app_length; cbn; lia). rewrite Q1, L1.
    assert (C : Nat.eqb step (n - 1) = Nat.eqb (S step) n) by (destruct (Nat.eqb_spec step (n - 1)), (Nat.eqb_spec (S step) n); try reflexivity; lia). rewrite C.
    cbn [length seq List.filter]. destruct ((step mod pe =? 0) || (S step =? n)) eqn:B; cbn [bind].
    + destruct (IH (S step) [] (mk_progress 0 0 (printed p ++ [(step, (qsum (opened ++ [v]) / inject_Z (Z.of_nat (length (opened ++ [v]))))%Q)]))) as (ws & p' & E & P & V & F & S1 & W); [reflexivity|reflexivity|cbn; lia|lia|].
      exists ((step, opened ++ [v]) :: ws), p'. split; [exact E|]. split; [rewrite P; cbn [printed map fst snd]; rewrite <- app_assoc; reflexivity|]. split; [|split; [|split]].
      * intros _. cbn [map snd List.concat]. destruct vs as [|v2 vs]; [cbn in S1; destruct ws; [cbn; rewrite app_nil_r; reflexivity|discriminate]|]. rewrite V by discriminate. rewrite <- app_assoc. reflexivity.
      * constructor; [cbn; destruct opened; discriminate|exact F].
      * cbn [map fst]. rewrite S1. reflexivity.
      * intros [|x l] w r Ew; cbn [app] in Ew; injection Ew as <- Ew; cbn [app map snd fst List.concat].
        -- rewrite app_nil_r, app_length. cbn [length]. lia.
        -- specialize (W l w r Ew). rewrite W. cbn [length]. rewrite app_length, app_length. cbn [length]. lia.
    + destruct (IH (S step) (opened ++ [v]) (mk_progress (qsum (opened ++ [v])) (length (opened ++ [v])) (printed p))) as (ws & p' & E & P & V & F & S1 & W); [reflexivity|reflexivity|rewrite app_length; cbn; lia|lia|].
      exists ws, p'. split; [exact E|]. split; [exact P|]. split; [|split; [exact F|split; [exact S1|]]].
      * intros _. destruct vs as [|v2 vs]; [cbn in Hn; exfalso; apply Bool.orb_false_iff in B as [_ B]; apply Nat.eqb_neq in B; lia|]. rewrite V by discriminate. rewrite <- app_assoc. reflexivity.
      * intros l w r Ew. rewrite (W l w r Ew). rewrite app_length. cbn [length]. lia.
Qed.
Theorem C130_prints : forall pe values, 0 < pe -> exists windows : list (nat * list Q),
  train_prints pe values = Ok (map (fun w => (fst w, average (snd w))) windows) /\ List.concat (map snd windows) = values /\ Forall (fun w => snd w <> []) windows /\
  (forall l w r, windows = l ++ w :: r -> S (fst w) = length (List.concat (map snd (l ++ [w])))) /\
  (forall s, In s (map fst windows) <-> s < length values /\ (s mod pe = 0 \/ S s = length values)) /\ NoDup (map fst windows).
Proof.
  intros pe values Hpe. destruct (prints_from pe (length values) Hpe values 0 [] (mk_progress 0 0 [])) as (ws & p' & E & P & V & F & S1 & W); [reflexivity|reflexivity|cbn; lia|reflexivity|].
  exists ws. unfold train_prints. rewrite E. cbn [rmap bind]. cbn [printed app] in P. split; [rewrite <- P; reflexivity|]. split; [|split; [exact F|split; [exact W|split]]].
  - destruct values as [|v vs]; [cbn in S1; destruct ws; [reflexivity|discriminate]|]. apply V. discriminate.
  - intros s. rewrite S1, filter_In, in_seq, Bool.orb_true_iff, !Nat.eqb_eq. intuition lia.
  - rewrite S1. apply NoDup_filter, seq_NoDup.
Qed.
Print Assumptions C130_prints.
(** The first printed loss is that of the first step alone. *)
Example C130_prints_ex : train_prints 2 [5; 1; 3; 4; 8; 7]%Q = Ok [(0, (5 # 1)%Q); (2, (4 # 2)%Q); (4, (12 # 2)%Q); (5, (7 # 1)%Q)] /\ train_prints 0 [1]%Q = Err ZeroDivisionError.
Proof. split; reflexivity. Qed.
