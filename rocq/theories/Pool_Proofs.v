(** Proofs about pooling. *)
From Verif Require Export Pool_Model.

(** ** Sizes *)
Lemma ceil_padding_spec n p k s q : (0 < s)%Z -> ceil_padding n p k s = Ok q ->
  let m := (n + fst p + snd p - k)%Z in
  exists c, ((c - 1) * s < m <= c * s)%Z /\ window_count n q k s = Z.max 0 (c + 1) /\
            fst q = fst p /\ (snd q = snd p /\ m = (c * s)%Z \/ snd q = (snd p + s)%Z /\ (m < c * s)%Z).
Proof.
  intros Hs H m. unfold ceil_padding in H. destruct (Z.eqb_spec s 0); [lia|]. fold m in H.
  pose proof (Z.div_mod m s ltac:(lia)) as HD. pose proof (Z.mod_pos_bound m s Hs) as HB.
  destruct (Z.eqb_spec (m mod s) 0) as [E|E]; inv H; unfold window_count.
  - exists (m / s)%Z. fold m. split; [nia|]. split; [auto|]. split; [auto|]. left. split; [auto|nia].
  - exists (m / s + 1)%Z. cbn [fst snd]. split; [nia|]. split; [|split; [auto|right; split; [auto|nia]]].
    replace (n + fst p + (snd p + s) - k)%Z with (m + 1 * s)%Z by lia. rewrite Z.div_add by lia. lia.
Qed.
Lemma floor_count n p k s : (0 < s)%Z -> let m := (n + fst p + snd p - k)%Z in
  exists c, (c * s <= m < (c + 1) * s)%Z /\ window_count n p k s = Z.max 0 (c + 1).
Proof.
  intros Hs m. exists (m / s)%Z. pose proof (Z.div_mod m s ltac:(lia)). pose proof (Z.mod_pos_bound m s Hs). split; [nia|auto].
Qed.

(** ** Values along one axis *)
Section Values.
  Context {A : Type}.
  Variables (op : A -> A -> A) (init : A).
  Hypothesis unit_r : forall a, op a init = a.

  Lemma fold_pad l a : Forall (fun x => x = init) l -> fold_left op l a = a.
  Proof. revert a. induction l as [|y l IH]; intros a H; cbn; auto. inversion H; subst. rewrite unit_r. auto. Qed.
  Lemma repeat_all n : Forall (fun x => x = init) (repeat init n).
  Proof. induction n; cbn; auto. Qed.
  Lemma firstn_repeat' n m : firstn n (repeat init m) = repeat init (Nat.min n m).
  Proof. revert m. induction n; intros [|m]; cbn; auto. f_equal. auto. Qed.
  Lemma skipn_repeat' n m : skipn n (repeat init m) = repeat init (m - n).
  Proof. revert m. induction n; intros [|m]; cbn; auto. Qed.
  (** The window from [start] folds over the elements [start - l <= i < start + k - l] of the input. *)
  Lemma window_fold l r x start k :
    fold_left op (window (padded init l r x) start k) init =
    fold_left op (firstn (start + k - l - (start - l)) (skipn (start - l) x)) init.
  Proof.
    unfold window, padded. rewrite skipn_app, repeat_length, skipn_repeat'.
    rewrite firstn_app, repeat_length, fold_left_app.
    rewrite (fold_pad (firstn k (repeat init (l - start)))) by (rewrite firstn_repeat'; apply repeat_all).
    rewrite skipn_app, firstn_app, fold_left_app, skipn_repeat'.
    match goal with |- fold_left op (firstn ?a (repeat init ?b)) _ = _ =>
      rewrite (fold_pad (firstn a (repeat init b))) by (rewrite firstn_repeat'; apply repeat_all) end.
    f_equal. f_equal. lia.
  Qed.
End Values.

(** ** AdaptivePool *)
Section Adaptive.
  Context {A : Type}.
  Lemma rows_len (m q : nat) (x : list A) : length (rows m q x) = m.
  Proof. revert x. induction m; intros x; cbn; auto. Qed.
  Lemma rows_concat m q : forall x : list A, length x = m * q -> concat (rows m q x) = x /\ Forall (fun w => length w = q) (rows m q x).
  Proof.
    induction m as [|m IH]; intros x Hx; cbn.
    - destruct x; cbn in *; [auto|lia].
    - destruct (IH (skipn q x)) as [E F]; [rewrite skipn_length; lia|]. rewrite E, firstn_skipn. split; auto.
      constructor; auto. rewrite firstn_length. lia.
  Qed.
  Lemma reshape_q_ok q m (x : list A) : 0 < q -> length x = m * q -> reshape_q q x = Ok (rows m q x).
  Proof.
    intros Hq Hx. unfold reshape_q. destruct (Nat.eqb_spec q 0); [lia|]. rewrite Hx, Nat.mod_mul, Nat.div_mul by auto. auto.
  Qed.
  Lemma reshape_m_ok m q (x : list A) : 0 < m -> length x = m * q -> reshape_m m x = Ok (rows m q x).
  Proof.
    intros Hm Hx. unfold reshape_m. destruct (Nat.eqb_spec m 0); [lia|]. rewrite Hx, Nat.mul_comm, Nat.mod_mul, Nat.div_mul by auto. auto.
  Qed.

  (** [ws] cuts [x] into [t] nonempty pieces of almost equal size. *)
  Definition balanced (x : list A) (t : nat) (ws : list (list A)) : Prop :=
    concat ws = x /\ length ws = t /\
    forall w, In w ws -> length w = length x / t \/ length w = length x / t + 1.

  Variables (opv : list A -> A) (ops : A -> A).
  Lemma adaptive1d_ok t (x : list A) : 0 < t <= length x -> exists ws, balanced x t ws /\
    adaptive1d opv ops t x = Ok (if Nat.eqb (length x mod t) 0 then map ops (map opv ws) else map opv ws).
  Proof.
    intros Ht. unfold adaptive1d. destruct (Nat.eqb_spec t 0) as [?|_]; [lia|].
    set (n := length x) in *. set (q := n / t). set (h := n mod t).
    assert (Hn : n = t * q + h) by (apply Nat.div_mod; lia).
    assert (Hh : h < t) by (apply Nat.mod_upper_bound; lia).
    assert (Hq : 0 < q) by (unfold q; apply Nat.div_str_pos; lia).
    destruct (Nat.eqb_spec h 0) as [E|E]; cbn [negb].
    - rewrite (reshape_q_ok q t) by (auto; fold n; lia). cbn [bind]. exists (rows t q x). split; auto.
      destruct (rows_concat t q x) as [C F]; [fold n; lia|]. split; auto. split; [apply rows_len|].
      intros w Hw. rewrite Forall_forall in F. left. fold n q. auto.
    - set (e := h * (q + 1)).
      assert (He : e <= n) by (unfold e; nia).
      rewrite (reshape_m_ok h (q + 1)) by (rewrite ?firstn_length; fold n; unfold e in *; lia). cbn [bind].
      rewrite (reshape_q_ok q (t - h)) by (auto; rewrite skipn_length; fold n; unfold e; nia). cbn [bind].
      exists (rows h (q + 1) (firstn e x) ++ rows (t - h) q (skipn e x)). rewrite map_app. split; auto.
      destruct (rows_concat h (q + 1) (firstn e x)) as [C1 F1]; [rewrite firstn_length; fold n; unfold e; lia|].
      destruct (rows_concat (t - h) q (skipn e x)) as [C2 F2]; [rewrite skipn_length; fold n; unfold e; nia|].
      split; [rewrite concat_app, C1, C2; apply firstn_skipn|]. split; [rewrite app_length, !rows_len; lia|].
      intros w Hw. fold n q. rewrite Forall_forall in F1, F2. apply in_app_iff in Hw as [Hw|Hw]; auto.
  Qed.
  Lemma adaptive1d_err t (x : list A) : t = 0 \/ length x < t -> exists e, adaptive1d opv ops t x = Err e.
  Proof.
    intros Ht. unfold adaptive1d. destruct (Nat.eqb_spec t 0); [eauto|]. assert (Hl : length x < t) by lia.
    rewrite (Nat.mod_small (length x) t), (Nat.div_small (length x) t) by lia.
    destruct (Nat.eqb_spec (length x) 0) as [E|E]; cbn [negb].
    - cbn. eauto.
    - destruct (reshape_m _ _); cbn; eauto.
  Qed.
  Lemma adaptive1d_len t (x : list A) out : adaptive1d opv ops t x = Ok out -> length out = t.
  Proof.
    intros H. destruct (Nat.eq_dec t 0) as [Ht|Ht]; [destruct (adaptive1d_err t x) as [e He]; [auto|congruence]|].
    destruct (Nat.lt_ge_cases (length x) t) as [Hl|Hl]; [destruct (adaptive1d_err t x) as [e He]; [auto|congruence]|].
    destruct (adaptive1d_ok t x) as (ws & (_ & HL & _) & E); [lia|]. rewrite E in H.
    destruct (Nat.eqb (length x mod t) 0); inv H; rewrite ?map_length; auto.
  Qed.
End Adaptive.

(** ** Any rank *)
Definition upd {X} (i : nat) (k : X) (l : list X) : list X := firstn i l ++ k :: skipn (S i) l.


Lemma del_len {X} j : forall l : list X, j < length l -> length (del j l) = length l - 1.
Proof. intros l H. unfold del. rewrite app_length, firstn_length, skipn_length. lia. Qed.
Lemma nth_del_lo {X} (d : X) i : forall j l, i < j -> j < length l -> nth i (del j l) d = nth i l d.
Proof.
  induction i as [|i IH]; intros [|j] [|a l] H1 H2; cbn in H2; try lia; auto.
  change (nth i (del j l) d = nth i l d). apply IH; lia.
Qed.
Lemma nth_del_hi {X} (d : X) j : forall i l, j <= i -> j < length l -> nth i (del j l) d = nth (S i) l d.
Proof.
  induction j as [|j IH]; intros i [|a l] H1 H2; cbn in H2; try lia; auto.
  destruct i as [|i]; [lia|]. change (nth i (del j l) d = nth (S i) l d). apply IH; lia.
Qed.
Lemma ins_upd_lo {X} (d k : X) i : forall j l, i < j -> j < length l -> ins j (nth j l d) (upd i k (del j l)) = upd i k l.
Proof.
  induction i as [|i IH]; intros [|j] [|a l] H1 H2; cbn in H2; try lia.
  - change (k :: ins j (nth j l d) (del j l) = k :: l). f_equal. unfold ins, del.
    revert j H1 H2. induction l as [|b l IHl]; intros [|j] H1 H2; cbn in *; try lia; auto. f_equal. apply IHl; lia.
  - change (a :: ins j (nth j l d) (upd i k (del j l)) = a :: upd i k l). f_equal. apply IH; lia.
Qed.
Lemma ins_upd_hi {X} (d k : X) j : forall i l, j <= i -> S i < length l -> ins j (nth j l d) (upd i k (del j l)) = upd (S i) k l.
Proof.
  induction j as [|j IH]; intros i [|a l] H1 H2; cbn in H2; try lia; auto.
  destruct i as [|i]; [lia|]. change (a :: ins j (nth j l d) (upd i k (del j l)) = a :: upd (S i) k l). f_equal. apply IH; lia.
Qed.

Section ND.
  Context {A : Type}.
  Variables (opv : list A -> A) (ops : A -> A) (t : nat).
  (** The pooled value number [k] of the line [y] of length [n]. *)
  Definition val (n : nat) (y : nat -> A) (k : nat) : option A :=
    match adaptive1d opv ops t (map y (seq 0 n)) with Ok out => nth_error out k | Err _ => None end.
  Lemma val_ext n y y' k : (forall i, y i = y' i) -> val n y k = val n y' k.
  Proof. intros H. unfold val. rewrite (map_ext y y'); auto. Qed.
  (** [g] pools axis [i] of arrays of rank [r]. *)
  Definition pools (g : jfun A) (r i : nat) : Prop :=
    forall sh, length sh = r -> 0 < t <= nth i sh 0 ->
    fsh g sh = Ok (upd i t sh) /\
    forall x idx, length idx = r -> nth i idx 0 < t ->
      Some (fval g sh x idx) = val (nth i sh 0) (fun k => x (upd i k idx)) (nth i idx 0).
  Lemma pools_base : pools (adaptive_fun opv ops t) 1 0.
  Proof.
    intros [|n [|]] Hl Ht; cbn in Hl, Ht; try lia. split.
    - cbn [adaptive_fun fsh]. destruct (adaptive1d_ok (fun _ : list unit => tt) (fun _ => tt) t (repeat tt n)) as (ws & _ & E); [rewrite repeat_length; lia|].
      destruct (adaptive1d _ _ t (repeat tt n)) as [out|] eqn:E'; [|discriminate]. apply adaptive1d_len in E'. cbn. rewrite E'. auto.
    - intros x [|k [|]] Hk Hkt; cbn in Hk, Hkt; try lia. cbn [adaptive_fun fval nth]. unfold val, line.
      rewrite (map_ext (fun k0 => x [k0]) (fun k0 => x (upd 0 k0 [k]))) by (intros; reflexivity).
      destruct (adaptive1d_ok opv ops t (map (fun k0 => x (upd 0 k0 [k])) (seq 0 n))) as (ws & _ & E); [rewrite map_length, seq_length; lia|].
      destruct (adaptive1d opv ops t (map (fun k0 => x (upd 0 k0 [k])) (seq 0 n))) as [out|] eqn:E'; [|discriminate].
      apply adaptive1d_len in E'. symmetry. apply nth_error_nth'. lia.
  Qed.
  Lemma pools_lo g r i j : pools g r i -> i < j -> j <= r -> pools (vmap j g) (S r) i.
  Proof.
    intros HG Hi Hj sh Hl Ht. assert (Hd : length (del j sh) = r) by (rewrite del_len; lia).
    assert (Hn : nth i (del j sh) 0 = nth i sh 0) by (apply nth_del_lo; lia).
    destruct (HG (del j sh) Hd) as [H1 H2]; [rewrite Hn; auto|]. rewrite Hn in H2. split.
    - cbn [vmap fsh]. destruct (nth_error_ge_ex sh j) as [n Hn0]; [lia|]. rewrite Hn0, H1. cbn. f_equal.
      rewrite <- (nth_error_nth sh j 0 Hn0). apply ins_upd_lo; lia.
    - intros x idx Hil Hit. cbn [vmap fval].
      rewrite H2 by (rewrite ?del_len, ?nth_del_lo; lia). rewrite nth_del_lo by lia. apply val_ext. intros k. f_equal. apply ins_upd_lo; lia.
  Qed.
  Lemma pools_hi g r i j : pools g r i -> j <= i -> i < r -> pools (vmap j g) (S r) (S i).
  Proof.
    intros HG Hi Hj sh Hl Ht. assert (Hd : length (del j sh) = r) by (rewrite del_len; lia).
    assert (Hn : nth i (del j sh) 0 = nth (S i) sh 0) by (apply nth_del_hi; lia).
    destruct (HG (del j sh) Hd) as [H1 H2]; [rewrite Hn; auto|]. rewrite Hn in H2. split.
    - cbn [vmap fsh]. destruct (nth_error_ge_ex sh j) as [n Hn0]; [lia|]. rewrite Hn0, H1. cbn. f_equal.
      rewrite <- (nth_error_nth sh j 0 Hn0). apply ins_upd_hi; lia.
    - intros x idx Hil Hit. cbn [vmap fval].
      rewrite H2 by (rewrite ?del_len, ?nth_del_hi; lia). rewrite nth_del_hi by lia. apply val_ext. intros k. f_equal. apply ins_upd_hi; lia.
  Qed.
  Definition stack (m i : nat) (f : jfun A) : jfun A :=
    fold_left (fun op j => if Nat.eqb i j then op else vmap j op) (seq 0 m) f.
  Lemma stack_S m i f : stack (S m) i f = if Nat.eqb i m then stack m i f else vmap m (stack m i f).
  Proof. unfold stack. rewrite seq_S, fold_left_app. auto. Qed.
  Lemma pools_last m i : m <= i -> pools (stack m i (adaptive_fun opv ops t)) (S m) m.
  Proof.
    induction m as [|m IH]; intros Hi; [apply pools_base|]. rewrite stack_S. destruct (Nat.eqb_spec i m); [lia|].
    apply pools_hi; [apply IH; lia|lia|lia].
  Qed.
  Lemma pools_stack nd : forall i, i < nd -> pools (stack nd i (adaptive_fun opv ops t)) nd i.
  Proof.
    induction nd as [|m IH]; intros i Hi; [lia|]. rewrite stack_S. destruct (Nat.eqb_spec i m) as [->|N].
    - apply pools_last. auto.
    - apply pools_lo; [apply IH; lia|lia|lia].
  Qed.
  Lemma pools_axis nd i : 0 < i < nd -> pools (axis_fun opv ops nd i t) nd i.
  Proof.
    intros Hi. replace (axis_fun opv ops nd i t) with (stack nd i (adaptive_fun opv ops t)); [apply pools_stack; lia|].
    unfold stack, axis_fun. destruct nd as [|nd]; [lia|]. cbn [seq fold_left]. destruct (Nat.eqb_spec i 0); [lia|].
    replace (S nd - 1) with nd by lia. auto.
  Qed.
End ND.

(** Pooling the axes [i], [i+1], ... one after the other. *)
Inductive pooled {A} (opv : list A -> A) (ops : A -> A) : nat -> list nat -> arr A -> arr A -> Prop :=
| pooled_nil : forall i x, pooled opv ops i [] x x
| pooled_cons : forall i t ts x y z, fst y = upd i t (fst x) ->
    (forall idx, length idx = length (fst x) -> nth i idx 0 < t ->
       exists ws, balanced (map (fun k => snd x (upd i k idx)) (seq 0 (nth i (fst x) 0))) t ws /\
         Some (snd y idx) = nth_error (if Nat.eqb (nth i (fst x) 0 mod t) 0 then map ops (map opv ws) else map opv ws) (nth i idx 0)) ->
    pooled opv ops (S i) ts y z -> pooled opv ops i (t :: ts) x z.
Lemma upd_len {X} i (k : X) l : i < length l -> length (upd i k l) = length l.
Proof. intros H. unfold upd. rewrite app_length, firstn_length. cbn [length]. rewrite skipn_length. lia. Qed.
Lemma nth_upd_other {X} (d : X) k j : forall i l, j <> i -> i < length l -> nth j (upd i k l) d = nth j l d.
Proof.
  induction j as [|j IH]; intros [|i] [|a l] H1 H2; cbn in H2; try lia; auto.
  change (nth j (upd i k l) d = nth j l d). apply IH; lia.
Qed.
Lemma adaptive_axes_ok {A} (opv : list A -> A) ops ts : forall i x, 0 < i -> i + length ts = length (fst x) ->
  (forall j t, nth_error ts j = Some t -> 0 < t <= nth (i + j) (fst x) 0) ->
  exists z, adaptive_axes opv ops (length (fst x)) i ts x = Ok z /\ pooled opv ops i ts x z.
Proof.
  induction ts as [|t ts IH]; intros i x Hi Hl Hts; cbn [adaptive_axes].
  - exists x. split; auto. constructor.
  - cbn in Hl. assert (Ht : 0 < t <= nth i (fst x) 0) by (specialize (Hts 0 t eq_refl); rewrite Nat.add_0_r in Hts; auto).
    destruct (pools_axis opv ops t (length (fst x)) i ltac:(lia) (fst x) eq_refl Ht) as [H1 H2].
    unfold apply_fun. rewrite H1. cbn [bind]. set (y := (upd i t (fst x), fval (axis_fun opv ops (length (fst x)) i t) (fst x) (snd x))).
    destruct (IH (S i) y) as (z & Hz & Hp).
    + lia.
    + cbn [fst y]. rewrite upd_len; lia.
    + intros j t' Hj. cbn [fst y]. rewrite nth_upd_other by lia. specialize (Hts (S j) t' Hj). replace (S i + j) with (i + S j) by lia. auto.
    + cbn [fst y] in Hz. rewrite upd_len in Hz by lia. exists z. split; auto. econstructor; [| |exact Hp]; [auto|].
      intros idx Hil Hit. cbn [snd y]. rewrite H2 by auto. unfold val.
      destruct (adaptive1d_ok opv ops t (map (fun k => snd x (upd i k idx)) (seq 0 (nth i (fst x) 0)))) as (ws & HB & E); [rewrite map_length, seq_length; lia|].
      exists ws. split; auto. rewrite E, map_length, seq_length. auto.
Qed.
Lemma pooled_shape {A} (opv : list A -> A) ops ts : forall i x z, pooled opv ops i ts x z -> i + length ts = length (fst x) ->
  fst z = firstn i (fst x) ++ ts.
Proof.
  induction ts as [|t ts IH]; intros i x z H Hl; inversion H as [|? ? ? ? y ? Hy Hv Hp]; subst.
  - cbn in Hl. rewrite app_nil_r, firstn_all2; auto. lia.
  - cbn in Hl. rewrite (IH _ _ _ Hp) by (rewrite Hy, upd_len; lia). rewrite Hy.
    unfold upd. rewrite firstn_app, firstn_length, firstn_firstn. replace (S i - Nat.min i (length (fst x))) with 1 by lia.
    replace (Nat.min (S i) i) with i by lia. cbn. rewrite <- app_assoc. auto.
Qed.
