(** Property C74: recurrent cells (equinox/nn/_rnn.py). *)
From Coq Require Import Reals Lra Lia List.
From Verif Require Import Norm_Props Rnn_Model.
Import ListNotations.
Local Open Scope nat_scope.
Local Open Scope list_scope.

(** Vectors given by a function of the index. *)
Definition tab (n : nat) (f : nat -> R) : list R := map f (seq 0 n).
Lemma tab_length n f : length (tab n f) = n.
Proof. unfold tab. now rewrite map_length, seq_length. Qed.
Lemma tab_ext n f g : (forall i, i < n -> f i = g i) -> tab n f = tab n g.
Proof. intro H. apply map_ext_in. intros i Hi. apply in_seq in Hi. apply H. lia. Qed.
Lemma tab_nth n f i : i < n -> nth i (tab n f) 0%R = f i.
Proof.
  intro H. unfold tab. rewrite (nth_indep _ 0%R (f 0)) by (rewrite map_length, seq_length; lia).
  rewrite map_nth, seq_nth by lia. reflexivity.
Qed.
Lemma tab_of l : l = tab (length l) (fun i => nth i l 0%R).
Proof.
  apply nth_ext with (d := 0%R) (d' := 0%R); [ now rewrite tab_length | ].
  intros i Hi. now rewrite tab_nth.
Qed.
Lemma tab_app n m f : tab (n + m) f = tab n f ++ tab m (fun i => f (n + i)).
Proof.
  unfold tab. rewrite seq_app, map_app. f_equal. cbn [Nat.add].
  apply nth_ext with (d := 0%R) (d' := 0%R); [ now rewrite !map_length, !seq_length | ].
  intros i Hi. rewrite map_length, seq_length in Hi.
  rewrite (nth_indep _ 0%R (f 0)) by (rewrite map_length, seq_length; lia).
  rewrite map_nth, seq_nth by lia.
  change (map (fun i0 => f (n + i0)) (seq 0 m)) with (tab m (fun i0 => f (n + i0))). now rewrite tab_nth.
Qed.
Lemma map_tab g n f : map g (tab n f) = tab n (fun i => g (f i)).
Proof. unfold tab. now rewrite map_map. Qed.
Lemma combine_map {A B C} (f : A -> B) (g : A -> C) l : List.combine (map f l) (map g l) = map (fun i => (f i, g i)) l.
Proof. induction l; cbn; congruence. Qed.
Lemma ew_tab o n f g : ew o (tab n f) (tab n g) = Ok (tab n (fun i => o (f i) (g i))).
Proof. unfold ew. rewrite !tab_length, Nat.eqb_refl. unfold tab. rewrite combine_map, map_map. reflexivity. Qed.
Lemma firstn_tab n m f : firstn n (tab (n + m) f) = tab n f.
Proof. rewrite tab_app, firstn_app, tab_length, Nat.sub_diag, firstn_O, app_nil_r. apply firstn_all2. rewrite tab_length. lia. Qed.
Lemma skipn_tab n m f : skipn n (tab (n + m) f) = tab m (fun i => f (n + i)).
Proof. rewrite tab_app, skipn_app, tab_length, Nat.sub_diag, skipn_O, skipn_all2 by (rewrite tab_length; lia). reflexivity. Qed.
Lemma split_tab k n f : 0 < k -> split k (tab (k * n) f) = Ok (map (fun j => tab n (fun i => f (j * n + i))) (seq 0 k)).
Proof.
  intro Hk. unfold split. rewrite tab_length, (Nat.mul_comm k n), Nat.mod_mul, Nat.div_mul by lia. cbn [Nat.eqb]. f_equal.
  clear Hk. enough (H : forall s, chunks k n (tab (n * k) (fun i => f (s * n + i))) = map (fun j => tab n (fun i => f (j * n + i))) (seq s k)).
  { specialize (H 0). cbn [Nat.mul] in H. rewrite <- H. f_equal. }
  induction k; intro s; [ reflexivity | ].
  cbn [chunks seq map]. replace (n * S k) with (n + n * k) by ring. rewrite firstn_tab, skipn_tab. f_equal.
  rewrite <- IHk. f_equal. apply tab_ext. intros i Hi. f_equal. ring.
Qed.
Lemma dot_Sum u v : length u = length v -> dot u v = Sum (length u) (fun j => nth j u 0 * nth j v 0)%R.
Proof.
  revert v. induction u; intros [ | y v ] H; try discriminate; [ reflexivity | ].
  cbn [dot length]. rewrite IHu by (cbn in H; lia).
  unfold Sum. cbn [length seq map fold_right nth]. rewrite <- seq_shift, map_map. reflexivity.
Qed.

(** ** Specification *)
(** A matrix with [m] rows and [n] columns. *)
Definition is_mat (m n : nat) (W : list (list R)) := length W = m /\ Forall (fun r => length r = n) W.
(** Entry [i] of the product of a matrix and a vector. *)
Definition prod (W : list (list R)) (x : list R) (i : nat) : R := Sum (length x) (fun j => nth j (nth i W []) 0 * nth j x 0)%R.
(** Entry [i] of a bias, 0 if biases are not used. *)
Definition bias_at (use : bool) (b : option (list R)) (i : nat) : R :=
  match use, b with true, Some l => nth i l 0%R | _, _ => 0%R end.
Definition is_bias (use : bool) (b : option (list R)) (n : nat) := use = true -> exists l, b = Some l /\ length l = n.
Definition logistic (x : R) : R := (1 / (1 + exp (- x)))%R.
Definition gru_shapes (I H : nat) (c : gru) :=
  is_mat (3 * H) I (g_ih c) /\ is_mat (3 * H) H (g_hh c) /\ is_bias (g_use_bias c) (g_bias c) (3 * H) /\ is_bias (g_use_bias c) (g_bias_n c) H.
Definition lstm_shapes (I H : nat) (c : lstm) :=
  is_mat (4 * H) I (l_ih c) /\ is_mat (4 * H) H (l_hh c) /\ is_bias (l_use_bias c) (l_bias c) (4 * H).

(** ** Facts *)
Lemma sigmoid_logistic x : sigmoid x = logistic x.
Proof. unfold sigmoid, logistic, Rdiv. now rewrite Rmult_1_l. Qed.
Lemma logistic_bounds x : (0 < logistic x < 1)%R.
Proof.
  unfold logistic. pose proof (exp_pos (- x)). split.
  - apply Rdiv_lt_0_compat; lra.
  - apply Rmult_lt_reg_r with (1 + exp (- x))%R; [ lra | ]. unfold Rdiv. rewrite Rmult_assoc, Rinv_l by lra. lra.
Qed.
Lemma tanh_bounds x : (-1 < tanh x < 1)%R.
Proof.
  unfold tanh, sinh, cosh. pose proof (exp_pos x). pose proof (exp_pos (- x)).
  split; apply Rmult_lt_reg_r with ((exp x + exp (- x)) / 2)%R; try lra;
    unfold Rdiv; rewrite Rmult_assoc, Rinv_l by lra; lra.
Qed.
Lemma matvec_tab m n W x : is_mat m n W -> length x = n -> matvec W x = Ok (tab m (prod W x)).
Proof.
  intros [ Hm Hn ] Hx. unfold matvec.
  replace (forallb _ W) with true.
  2:{ symmetry. apply forallb_forall. intros r Hr. rewrite Forall_forall in Hn. apply Nat.eqb_eq. rewrite (Hn r Hr). congruence. }
  f_equal. apply nth_ext with (d := 0%R) (d' := 0%R); [ rewrite map_length, tab_length; exact Hm | ].
  intros i Hi. rewrite map_length in Hi. rewrite tab_nth by lia.
  rewrite (nth_indep _ 0%R (dot [] x)) by (rewrite map_length; lia).
  rewrite (map_nth (fun row => dot row x)).
  assert (Hr : length (nth i W []) = n) by (rewrite Forall_forall in Hn; apply Hn, nth_In; lia).
  rewrite dot_Sum by lia. unfold prod. now rewrite Hr, Hx.
Qed.
Lemma matvec_err m n W x : 0 < m -> is_mat m n W -> length x <> n -> matvec W x = Err TypeError.
Proof.
  intros H0 [ Hm Hn ] Hx. unfold matvec. destruct W as [ | r W ]; [ cbn in Hm; lia | ].
  inversion Hn; subst. cbn [forallb]. rewrite (proj2 (Nat.eqb_neq _ _)) by congruence. reflexivity.
Qed.
Lemma add_bias_tab use b n f : is_bias use b n -> add_bias use b (tab n f) = Ok (tab n (fun i => f i + bias_at use b i)%R).
Proof.
  intro H. unfold add_bias, bias_at. destruct use.
  - destruct (H eq_refl) as (l & -> & Hl). rewrite (tab_of l) at 1. rewrite Hl, ew_tab. reflexivity.
  - f_equal. apply tab_ext. intros. lra.
Qed.
Lemma tab_const_one a : [a] = tab 1 (fun _ => a).
Proof. reflexivity. Qed.
Lemma ew_one_r o n f a : ew o (tab n f) [a] = Ok (tab n (fun i => o (f i) a)).
Proof.
  unfold ew. rewrite tab_length. cbn [length]. destruct (Nat.eqb n 1) eqn:E.
  - apply Nat.eqb_eq in E. subst. reflexivity.
  - apply Nat.eqb_neq in E. destruct (tab n f) as [ | x [ | y l ] ] eqn:Et.
    + rewrite <- (map_tab (fun z => o z a)), Et. reflexivity.
    + apply (f_equal (@length R)) in Et. rewrite tab_length in Et. cbn in Et. lia.
    + rewrite <- (map_tab (fun z => o z a)), Et. reflexivity.
Qed.
Lemma ew_one_l o n f a : ew o [a] (tab n f) = Ok (tab n (fun i => o a (f i))).
Proof.
  unfold ew. rewrite tab_length. cbn [length]. destruct (Nat.eqb 1 n) eqn:E.
  - apply Nat.eqb_eq in E. subst. reflexivity.
  - now rewrite map_tab.
Qed.
Lemma tab_repeat n y : tab n (fun _ => y) = repeat y n.
Proof. unfold tab. generalize 0. induction n as [ | n IH ]; intro s; [ reflexivity | ]. cbn [seq map repeat]. f_equal. apply IH. Qed.
Lemma ew_err o u v : length u <> length v -> length u <> 1 -> length v <> 1 -> ew o u v = Err TypeError.
Proof.
  intros H Hu Hv. unfold ew. rewrite (proj2 (Nat.eqb_neq _ _) H).
  destruct u as [ | a [ | a' u ] ]; destruct v as [ | b [ | b' v ] ]; cbn in *; try lia; reflexivity.
Qed.

(** ** C74 *)
Section Cells.
  Variables I H : nat.
  (** Reset gate, update gate and candidate of the documentation; [c] a cell, [x] the input, [h] the hidden state. *)
  Definition gru_r (c : gru) x h i := logistic (prod (g_ih c) x i + bias_at (g_use_bias c) (g_bias c) i + prod (g_hh c) h i)%R.
  Definition gru_z (c : gru) x h i := logistic (prod (g_ih c) x (H + i) + bias_at (g_use_bias c) (g_bias c) (H + i) + prod (g_hh c) h (H + i))%R.
  Definition gru_n (c : gru) x h i :=
    tanh (prod (g_ih c) x (2 * H + i) + bias_at (g_use_bias c) (g_bias c) (2 * H + i)
          + gru_r c x h i * (prod (g_hh c) h (2 * H + i) + bias_at (g_use_bias c) (g_bias_n c) i))%R.

  (** C74. A GRU cell mixes the hidden state and the candidate with the update gate; the three gates use consecutive blocks of rows. *)
  Theorem C74_gru_call : forall c x h, gru_shapes I H c -> length x = I -> length h = H ->
    exists h', call_gru c x h = Ok h' /\ length h' = H /\
      forall i, i < H -> nth i h' 0%R = ((1 - gru_z c x h i) * gru_n c x h i + gru_z c x h i * nth i h 0)%R.
  Proof.
    intros c x h (Hih & Hhh & Hb & Hbn) Hx Hh.
    exists (tab H (fun i => (1 - gru_z c x h i) * gru_n c x h i + gru_z c x h i * nth i h 0)%R).
    split; [ | split; [ apply tab_length | intros; now apply tab_nth ] ].
    unfold call_gru. rewrite (matvec_tab _ _ _ _ Hih Hx). cbn [bind]. rewrite (add_bias_tab _ _ _ _ Hb). cbn [bind].
    rewrite split_tab by lia. cbn [bind]. rewrite (matvec_tab _ _ _ _ Hhh Hh). cbn [bind]. rewrite split_tab by lia. cbn [bind].
    cbn [seq map]. rewrite !ew_tab. cbn [bind]. rewrite (add_bias_tab _ _ _ _ Hbn). cbn [bind].
    rewrite !map_tab. rewrite !ew_tab. cbn [bind]. rewrite !ew_tab. cbn [bind]. rewrite !map_tab.
    rewrite (tab_of h) at 1. rewrite Hh, ew_tab. cbn [bind]. rewrite ew_tab. cbn [bind]. rewrite ew_tab. f_equal. apply tab_ext.
    intros i Hi. unfold gru_z, gru_n, gru_r. rewrite !sigmoid_logistic.
    replace (0 * H + i) with i by lia. replace (1 * H + i) with (H + i) by lia. ring.
  Qed.

  (** C74. Inputs and hidden states of any other size are refused. *)
  Theorem C74_gru_refused : forall c x h, 0 < H -> gru_shapes I H c -> (length x <> I \/ length h <> H) -> call_gru c x h = Err TypeError.
  Proof.
    intros c x h H0 (Hih & Hhh & Hb & Hbn) Hx. unfold call_gru.
    destruct (Nat.eq_dec (length x) I) as [ Ex | Ex ].
    - rewrite (matvec_tab _ _ _ _ Hih Ex). cbn [bind]. rewrite (add_bias_tab _ _ _ _ Hb). cbn [bind].
      rewrite split_tab by lia. cbn [bind]. rewrite (matvec_err (3 * H) H) by (auto; try lia; tauto). reflexivity.
    - rewrite (matvec_err (3 * H) I) by (auto; lia). reflexivity.
  Qed.

  (** C74. No sequence of inputs, whatever the weights, makes hidden states leave a range containing [-1, 1]; a step from inside is strictly inside. *)
  Fixpoint run_gru (c : gru) (xs : list (list R)) (h : list R) : res (list R) :=
    match xs with [] => Ok h | x :: xs => h' <- call_gru c x h ;; run_gru c xs h' end.
  Theorem C74_gru_bounded : forall c xs h B, gru_shapes I H c -> Forall (fun x => length x = I) xs -> length h = H ->
    (1 <= B)%R -> (forall i, i < H -> (Rabs (nth i h 0) <= B)%R) ->
    exists h', run_gru c xs h = Ok h' /\ length h' = H /\ (forall i, i < H -> (Rabs (nth i h' 0) <= B)%R) /\
               (xs <> [] -> forall i, i < H -> (Rabs (nth i h' 0) < B)%R).
  Proof.
    intros c xs. induction xs as [ | x xs IH ]; intros h B Hc Hxs Hh HB Hr.
    - exists h. repeat split; auto. intro F. now destruct F.
    - pose proof (Forall_inv Hxs) as Hx. pose proof (Forall_inv_tail Hxs) as Hxs'. destruct (C74_gru_call c x h Hc Hx Hh) as (h' & E & Hl & Hf).
      assert (Hr' : forall i, i < H -> (Rabs (nth i h' 0) < B)%R).
      { intros i Hi. rewrite (Hf i Hi). pose proof (Hr i Hi) as Hb.
        pose proof (logistic_bounds (prod (g_ih c) x (H + i) + bias_at (g_use_bias c) (g_bias c) (H + i) + prod (g_hh c) h (H + i))) as Hz.
        fold (gru_z c x h i) in Hz. set (z := gru_z c x h i) in *.
        assert (Hn : (-1 < gru_n c x h i < 1)%R) by apply tanh_bounds. set (n := gru_n c x h i) in *. set (y := nth i h 0%R) in *.
        unfold Rabs in Hb. destruct (Rcase_abs y).
        - apply Rabs_def1; nra.
        - apply Rabs_def1; nra. }
      cbn [run_gru]. rewrite E. cbn [bind].
      destruct (IH h' B Hc Hxs' Hl HB) as (h2 & E2 & Hl2 & Hb2 & Hs2); [ intros i Hi; now apply Rlt_le, Hr' | ].
      exists h2. repeat split; auto. intros _ i Hi. destruct xs as [ | x2 xs ].
      + cbn in E2. injection E2 as <-. now apply Hr'.
      + now apply Hs2.
  Qed.

  (** Gates of an LSTM cell: block [k] of rows. *)
  Definition lstm_pre (c : lstm) x h k i := (prod (l_ih c) x (k * H + i) + prod (l_hh c) h (k * H + i) + bias_at (l_use_bias c) (l_bias c) (k * H + i))%R.
  Definition lstm_c (c : lstm) x h y i := (logistic (lstm_pre c x h 1 i) * y + logistic (lstm_pre c x h 0 i) * tanh (lstm_pre c x h 2 i))%R.
  Definition lstm_h (c : lstm) x h y i := (logistic (lstm_pre c x h 3 i) * tanh (lstm_c c x h y i))%R.

  Lemma lstm_gates c x h cs : lstm_shapes I H c -> length x = I -> length h = H ->
    call_lstm c x (h, cs) =
      (fc <- ew Rmult (tab H (fun i => logistic (lstm_pre c x h 1 i))) cs ;;
       c' <- ew Rplus fc (tab H (fun i => logistic (lstm_pre c x h 0 i) * tanh (lstm_pre c x h 2 i)))%R ;;
       h' <- ew Rmult (tab H (fun i => logistic (lstm_pre c x h 3 i))) (map tanh c') ;;
       Ok (h', c')).
  Proof.
    intros (Hih & Hhh & Hb) Hx Hh. unfold call_lstm. rewrite (matvec_tab _ _ _ _ Hih Hx). cbn [bind].
    rewrite (matvec_tab _ _ _ _ Hhh Hh). cbn [bind]. rewrite ew_tab. cbn [bind]. rewrite (add_bias_tab _ _ _ _ Hb). cbn [bind].
    rewrite split_tab by lia. cbn [bind seq map]. rewrite !map_tab. rewrite ew_tab.
    assert (E : forall k, tab H (fun i => sigmoid (prod (l_ih c) x (k * H + i) + prod (l_hh c) h (k * H + i) + bias_at (l_use_bias c) (l_bias c) (k * H + i)))%R
                          = tab H (fun i => logistic (lstm_pre c x h k i))) by (intro k; apply tab_ext; intros; apply sigmoid_logistic).
    rewrite !E. destruct (ew Rmult (tab H _) cs) as [ fc | ]; [ | reflexivity ]. cbn [bind].
    replace (tab H (fun i => sigmoid (prod (l_ih c) x (0 * H + i) + prod (l_hh c) h (0 * H + i) + bias_at (l_use_bias c) (l_bias c) (0 * H + i))
                             * tanh (prod (l_ih c) x (2 * H + i) + prod (l_hh c) h (2 * H + i) + bias_at (l_use_bias c) (l_bias c) (2 * H + i)))%R)
      with (tab H (fun i => logistic (lstm_pre c x h 0 i) * tanh (lstm_pre c x h 2 i))%R); [ reflexivity | ].
    apply tab_ext. intros. rewrite sigmoid_logistic. reflexivity.
  Qed.

  (** C74. An LSTM cell forgets, adds and outputs by its gates, which use consecutive blocks of rows. *)
  Theorem C74_lstm_call : forall c x h cs, lstm_shapes I H c -> length x = I -> length h = H -> length cs = H ->
    exists h' c', call_lstm c x (h, cs) = Ok (h', c') /\ length h' = H /\ length c' = H /\
      forall i, i < H -> nth i c' 0%R = lstm_c c x h (nth i cs 0%R) i /\ nth i h' 0%R = lstm_h c x h (nth i cs 0%R) i.
  Proof.
    intros c x h cs Hc Hx Hh Hcs. exists (tab H (fun i => lstm_h c x h (nth i cs 0%R) i)), (tab H (fun i => lstm_c c x h (nth i cs 0%R) i)).
    rewrite !tab_length. split; [ | split; [ reflexivity | split; [ reflexivity | intros i Hi; now rewrite !tab_nth by assumption ] ] ].
    rewrite (lstm_gates c x h cs Hc Hx Hh). rewrite (tab_of cs), Hcs, ew_tab. cbn [bind]. rewrite ew_tab. cbn [bind]. rewrite map_tab, ew_tab. cbn [bind].
    f_equal. f_equal; apply tab_ext; intros i Hi; rewrite tab_nth by assumption; reflexivity.
  Qed.

  (** C74. Inputs and hidden vectors of any other size are refused, and so are cell vectors of another size, unless a size is one. *)
  Theorem C74_lstm_refused : forall c x h cs, 0 < H -> lstm_shapes I H c ->
    (length x <> I \/ length h <> H \/ length cs <> H /\ length cs <> 1 /\ H <> 1) -> call_lstm c x (h, cs) = Err TypeError.
  Proof.
    intros c x h cs H0 Hc Hx. destruct (Nat.eq_dec (length x) I) as [ Ex | Ex ]; [ destruct (Nat.eq_dec (length h) H) as [ Eh | Eh ] | ].
    - assert (Hcs : length cs <> H /\ length cs <> 1 /\ H <> 1) by tauto. rewrite (lstm_gates c x h cs Hc Ex Eh), ew_err; rewrite ?tab_length; try lia. reflexivity.
    - destruct Hc as (Hih & Hhh & Hb). unfold call_lstm. rewrite (matvec_tab _ _ _ _ Hih Ex). cbn [bind].
      rewrite (matvec_err (4 * H) H) by (auto; lia). reflexivity.
    - destruct Hc as (Hih & Hhh & Hb). unfold call_lstm. rewrite (matvec_err (4 * H) I) by (auto; lia). reflexivity.
  Qed.

  (** C74. A cell vector of length one is used for every unit. *)
  Theorem C74_lstm_one_cell : forall c x h y, lstm_shapes I H c -> length x = I -> length h = H ->
    call_lstm c x (h, [y]) = call_lstm c x (h, repeat y H).
  Proof.
    intros c x h y Hc Hx Hh. rewrite !(lstm_gates c x h _ Hc Hx Hh). rewrite ew_one_r.
    replace (repeat y H) with (tab H (fun _ => y)); [ now rewrite ew_tab | apply tab_repeat ].
  Qed.

  (** C74. Outputs of an LSTM cell are in (-1, 1) and its cell entries move away from 0 by less than 1 a step. *)
  Fixpoint run_lstm (c : lstm) (xs : list (list R)) (s : list R * list R) : res (list R * list R) :=
    match xs with [] => Ok s | x :: xs => s' <- call_lstm c x s ;; run_lstm c xs s' end.
  Theorem C74_lstm_bounded : forall c xs h cs, lstm_shapes I H c -> Forall (fun x => length x = I) xs -> length h = H -> length cs = H ->
    exists h' c', run_lstm c xs (h, cs) = Ok (h', c') /\ length h' = H /\ length c' = H /\
      (forall i, i < H -> (Rabs (nth i c' 0) <= Rabs (nth i cs 0) + INR (length xs))%R) /\
      (xs <> [] -> forall i, i < H -> (Rabs (nth i h' 0) < 1 /\ Rabs (nth i c' 0) < Rabs (nth i cs 0) + INR (length xs))%R).
  Proof.
    intros c xs. induction xs as [ | x xs IH ]; intros h cs Hc Hxs Hh Hcs.
    - exists h, cs. repeat split; auto; try (intros; cbn; lra); match goal with Hf : [] <> [] |- _ => now destruct Hf end.
    - pose proof (Forall_inv Hxs) as Hx. pose proof (Forall_inv_tail Hxs) as Hxs'. destruct (C74_lstm_call c x h cs Hc Hx Hh Hcs) as (h' & c' & E & Hl & Hl' & Hf).
      assert (Hr' : forall i, i < H -> (Rabs (nth i h' 0) < 1 /\ Rabs (nth i c' 0) < Rabs (nth i cs 0) + 1)%R).
      { intros i Hi. destruct (Hf i Hi) as [ -> -> ]. unfold lstm_h. set (cc := lstm_c c x h (nth i cs 0%R) i). split.
        - pose proof (logistic_bounds (lstm_pre c x h 3 i)). pose proof (tanh_bounds cc). apply Rabs_def1; nra.
        - unfold cc, lstm_c. pose proof (logistic_bounds (lstm_pre c x h 1 i)) as Hf1. pose proof (logistic_bounds (lstm_pre c x h 0 i)) as Hi1.
          pose proof (tanh_bounds (lstm_pre c x h 2 i)) as Hg. set (f := logistic (lstm_pre c x h 1 i)) in *. set (ii := logistic (lstm_pre c x h 0 i)) in *. set (g := tanh (lstm_pre c x h 2 i)) in *. set (y := nth i cs 0%R).
          assert (Hig : (-1 < ii * g < 1)%R) by (split; nra).
          assert (Hfy : (- Rabs y <= f * y <= Rabs y)%R) by (unfold Rabs; destruct (Rcase_abs y); split; nra).
          apply Rabs_def1; lra. }
      cbn [run_lstm]. rewrite E. cbn [bind].
      destruct (IH h' c' Hc Hxs' Hl Hl') as (h2 & c2 & E2 & Hl2 & Hl2' & Hb2 & Hs2).
      exists h2, c2. cbn [length]. rewrite S_INR.
      split; [ exact E2 | ]. split; [ exact Hl2 | ]. split; [ exact Hl2' | ]. split.
      + intros i Hi. pose proof (Hb2 i Hi). pose proof (Hr' i Hi). lra.
      + intros _ i Hi. split.
        * destruct xs as [ | x2 xs ]; [ cbn in E2; injection E2 as <- <-; now apply Hr' | now apply Hs2 ].
        * pose proof (Hb2 i Hi). pose proof (Hr' i Hi). lra.
  Qed.
End Cells.

(** C74. As stated for LSTM cells - a cell vector of the wrong size is refused - the property fails: a cell with one hidden unit takes a cell vector of any
    size and returns vectors of that size. *)
Theorem C74_lstm_sizes_refuted : forall n, exists c, lstm_shapes 1 1 c /\
  exists h' c', call_lstm c [0%R] ([0%R], repeat 1%R n) = Ok (h', c') /\ length h' = n /\ length c' = n.
Proof.
  intro n. set (W := [[0%R]; [0%R]; [0%R]; [0%R]]).
  exists {| l_ih := W; l_hh := W; l_bias := None; l_input_size := 1; l_hidden_size := 1; l_use_bias := false |}.
  assert (HW : is_mat 4 1 W) by (split; [ reflexivity | repeat constructor ]).
  assert (Hc : lstm_shapes 1 1 {| l_ih := W; l_hh := W; l_bias := None; l_input_size := 1; l_hidden_size := 1; l_use_bias := false |}).
  { split; [ exact HW | split; [ exact HW | discriminate ] ]. }
  split; [ exact Hc | ]. rewrite (lstm_gates 1 1 _ [0%R] [0%R] _ Hc eq_refl eq_refl).
  rewrite <- tab_repeat. unfold tab at 1. cbn [map seq]. rewrite ew_one_l. cbn [bind].
  unfold tab at 2. cbn [map seq]. rewrite ew_one_r. cbn [bind]. rewrite map_tab. unfold tab at 1. cbn [map seq]. rewrite ew_one_l. cbn [bind].
  eexists _, _. split; [ reflexivity | ]. now rewrite !tab_length.
Qed.
Print Assumptions C74_lstm_sizes_refuted.

Section Init.
  Variables (Key : Type) (ksplit : Key -> nat -> list Key).
  Variable uniform1 : Key -> nat -> R -> list R.
  Variable uniform2 : Key -> nat -> nat -> R -> list (list R).
  (** [jrandom.split(key, n)] returns [n] keys; [jrandom.uniform] an array of the shape asked for, in the range asked for. *)
  Hypothesis ksplit_length : forall k n, length (ksplit k n) = n.
  Hypothesis uniform1_shape : forall k n b, length (uniform1 k n b) = n.
  Hypothesis uniform2_shape : forall k m n b, is_mat m n (uniform2 k m n b).
  Hypothesis uniform1_range : forall k n b i, (0 <= b)%R -> (Rabs (nth i (uniform1 k n b) 0) <= b)%R.
  Hypothesis uniform2_range : forall k m n b i j, (0 <= b)%R -> (Rabs (nth j (nth i (uniform2 k m n b) []) 0) <= b)%R.

  (** C74. A GRU cell draws each parameter with its own key of a four-way split, in the shapes calls need, with entries within [1 / sqrt hidden_size];
      without bias there is none. *)
  Theorem C74_gru_init : forall I H b key, 0 < H -> exists k0 k1 k2 k3 c,
    ksplit key 4 = [k0; k1; k2; k3] /\ make_gru Key ksplit uniform1 uniform2 I H b key = Ok c /\ gru_shapes I H c /\
    let lim := (1 / sqrt (INR H))%R in
    g_ih c = uniform2 k0 (3 * H) I lim /\ g_hh c = uniform2 k1 (3 * H) H lim /\
    g_bias c = (if b then Some (uniform1 k2 (3 * H) lim) else None) /\ g_bias_n c = (if b then Some (uniform1 k3 H lim) else None) /\
    g_input_size c = I /\ g_hidden_size c = H /\ g_use_bias c = b /\
    (forall i j, Rabs (nth j (nth i (g_ih c) []) 0) <= lim)%R /\ (forall i j, Rabs (nth j (nth i (g_hh c) []) 0) <= lim)%R /\
    (forall i, Rabs (bias_at b (g_bias c) i) <= lim)%R /\ (forall i, Rabs (bias_at b (g_bias_n c) i) <= lim)%R.
  Proof.
    intros I H b key H0. pose proof (ksplit_length key 4) as Hl. unfold make_gru.
    destruct (ksplit key 4) as [ | k0 [ | k1 [ | k2 [ | k3 [ | ? ? ] ] ] ] ]; try discriminate.
    rewrite (proj2 (Nat.eqb_neq _ _)) by lia. assert (HI : (0 < INR H)%R) by (apply lt_0_INR; lia).
    assert (E : sqrt (1 / INR H) = (1 / sqrt (INR H))%R) by (rewrite sqrt_div_alt by exact HI; now rewrite sqrt_1).
    assert (Hlim : (0 <= 1 / sqrt (INR H))%R) by (rewrite <- E; apply sqrt_pos).
    rewrite E. eexists k0, k1, k2, k3, _. split; [ reflexivity | ]. split; [ reflexivity | ]. split.
    - split; [ apply uniform2_shape | ]. split; [ apply uniform2_shape | ].
      split; intro Hb; cbn in *; subst b; eexists; (split; [ reflexivity | apply uniform1_shape ]).
    - cbv zeta. cbn [g_ih g_hh g_bias g_bias_n g_input_size g_hidden_size g_use_bias]. do 7 (split; [ reflexivity | ]).
      split; [ intros; now apply uniform2_range | ]. split; [ intros; now apply uniform2_range | ].
      split; intro i; destruct b; cbn [bias_at]; try (now apply uniform1_range); now rewrite Rabs_R0.
  Qed.
  (** C74. The same for LSTM cells, with a three-way split. *)
  Theorem C74_lstm_init : forall I H b key, 0 < H -> exists k0 k1 k2 c,
    ksplit key 3 = [k0; k1; k2] /\ make_lstm Key ksplit uniform1 uniform2 I H b key = Ok c /\ lstm_shapes I H c /\
    let lim := (1 / sqrt (INR H))%R in
    l_ih c = uniform2 k0 (4 * H) I lim /\ l_hh c = uniform2 k1 (4 * H) H lim /\
    l_bias c = (if b then Some (uniform1 k2 (4 * H) lim) else None) /\
    l_input_size c = I /\ l_hidden_size c = H /\ l_use_bias c = b /\
    (forall i j, Rabs (nth j (nth i (l_ih c) []) 0) <= lim)%R /\ (forall i j, Rabs (nth j (nth i (l_hh c) []) 0) <= lim)%R /\
    (forall i, Rabs (bias_at b (l_bias c) i) <= lim)%R.
  Proof.
    intros I H b key H0. pose proof (ksplit_length key 3) as Hl. unfold make_lstm.
    destruct (ksplit key 3) as [ | k0 [ | k1 [ | k2 [ | ? ? ] ] ] ]; try discriminate.
    rewrite (proj2 (Nat.eqb_neq _ _)) by lia. assert (HI : (0 < INR H)%R) by (apply lt_0_INR; lia).
    assert (E : sqrt (1 / INR H) = (1 / sqrt (INR H))%R) by (rewrite sqrt_div_alt by exact HI; now rewrite sqrt_1).
    assert (Hlim : (0 <= 1 / sqrt (INR H))%R) by (rewrite <- E; apply sqrt_pos).
    rewrite E. eexists k0, k1, k2, _. split; [ reflexivity | ]. split; [ reflexivity | ]. split.
    - split; [ apply uniform2_shape | ]. split; [ apply uniform2_shape | ].
      intro Hb; cbn in *; subst b; eexists; (split; [ reflexivity | apply uniform1_shape ]).
    - cbv zeta. cbn [l_ih l_hh l_bias l_input_size l_hidden_size l_use_bias]. do 6 (split; [ reflexivity | ]).
      split; [ intros; now apply uniform2_range | ]. split; [ intros; now apply uniform2_range | ].
      intro i; destruct b; cbn [bias_at]; try (now apply uniform1_range); now rewrite Rabs_R0.
  Qed.
  (** C74. A cell without hidden units cannot be built. *)
  Theorem C74_no_hidden_units : forall I b key,
    make_gru Key ksplit uniform1 uniform2 I 0 b key = Err ZeroDivisionError /\
    make_lstm Key ksplit uniform1 uniform2 I 0 b key = Err ZeroDivisionError.
  Proof.
    intros I b key. pose proof (ksplit_length key 3) as Hl3. pose proof (ksplit_length key 4) as Hl4. unfold make_gru, make_lstm. split.
    - destruct (ksplit key 4) as [ | ? [ | ? [ | ? [ | ? [ | ? ? ] ] ] ] ]; try discriminate. reflexivity.
    - destruct (ksplit key 3) as [ | ? [ | ? [ | ? [ | ? ? ] ] ] ]; try discriminate. reflexivity.
  Qed.
End Init.
Print Assumptions C74_gru_call.
Print Assumptions C74_gru_refused.
Print Assumptions C74_gru_bounded.
Print Assumptions C74_lstm_call.
Print Assumptions C74_lstm_refused.
Print Assumptions C74_lstm_one_cell.
Print Assumptions C74_lstm_bounded.
Print Assumptions C74_gru_init.
Print Assumptions C74_lstm_init.
Print Assumptions C74_no_hidden_units.

(** C74. A cell told to use a bias it does not have (any more) raises, whatever it is given. *)
Theorem C74_missing_bias :
  (forall c x h, g_use_bias c = true -> g_bias c = None -> call_gru c x h = Err TypeError) /\
  (forall I H c x h, is_mat (3 * H) I (g_ih c) -> is_mat (3 * H) H (g_hh c) -> (exists b, g_bias c = Some b /\ length b = 3 * H) ->
     length x = I -> length h = H -> g_use_bias c = true -> g_bias_n c = None -> call_gru c x h = Err TypeError) /\
  (forall c x s, l_use_bias c = true -> l_bias c = None -> call_lstm c x s = Err TypeError).
Proof.
  split; [ | split ].
  - intros c x h Hu Hb. unfold call_gru, matvec, add_bias. rewrite Hu, Hb. destruct (forallb _ (g_ih c)); reflexivity.
  - intros I H c x h Hih Hhh Hb Hx Hh Hu Hn. unfold call_gru. rewrite (matvec_tab _ _ _ _ Hih Hx). cbn [bind].
    rewrite (add_bias_tab _ _ _ _ (fun _ => Hb)). cbn [bind]. rewrite split_tab by lia. cbn [bind].
    rewrite (matvec_tab _ _ _ _ Hhh Hh). cbn [bind]. rewrite split_tab by lia. cbn [bind seq map]. rewrite !ew_tab. cbn [bind].
    unfold add_bias. rewrite Hu, Hn. reflexivity.
  - intros c x [h cs] Hu Hb. unfold call_lstm, matvec, add_bias. rewrite Hu, Hb. destruct (forallb _ (l_ih c)); [ | reflexivity ]. cbn [bind].
    destruct (forallb _ (l_hh c)); [ | reflexivity ]. cbn [bind]. unfold ew.
    destruct (Nat.eqb _ _); [ reflexivity | ]. destruct (map _ (l_ih c)) as [ | ? [ | ? ? ] ], (map _ (l_hh c)) as [ | ? [ | ? ? ] ]; reflexivity.
Qed.
Print Assumptions C74_missing_bias.

(** Non-vacuity: cells with one unit and one input whose gates all have pre-activation 0, so that gates are 1/2 and candidates 0. *)
Lemma logistic_0 : logistic 0 = (1 / 2)%R.
Proof. unfold logistic. rewrite Ropp_0, exp_0. lra. Qed.
Example C74_ex_gru : let W := [[0%R]; [0%R]; [0%R]] in
  let c := {| g_ih := W; g_hh := W; g_bias := Some [0%R; 0%R; 0%R]; g_bias_n := Some [5%R]; g_input_size := 1; g_hidden_size := 1; g_use_bias := true |} in
  gru_shapes 1 1 c /\ gru_n 1 c [7%R] [3%R] 0 = tanh (5 / 2) /\ call_gru c [7%R] [3%R] = Ok [(tanh (5 / 2) / 2 + 3 / 2)%R].
Proof.
  intros W c. assert (HW : is_mat 3 1 W) by (split; [ reflexivity | repeat constructor ]).
  assert (Hc : gru_shapes 1 1 c) by (repeat split; try (repeat constructor); intros _; eexists; split; reflexivity).
  assert (Hn : gru_n 1 c [7%R] [3%R] 0 = tanh (5 / 2)).
  { unfold gru_n, gru_r, prod, Sum. cbn. f_equal. rewrite !Rmult_0_l, !Rplus_0_l, logistic_0. lra. }
  split; [ exact Hc | ]. split; [ exact Hn | ].
  destruct (C74_gru_call 1 1 c [7%R] [3%R] Hc eq_refl eq_refl) as (h & -> & Hl & Hf).
  destruct h as [ | a [ | ? ? ] ]; try discriminate. specialize (Hf 0 (le_n 1)). rewrite Hn in Hf. cbn [nth] in Hf. rewrite Hf. do 2 f_equal.
  replace (gru_z 1 c [7%R] [3%R] 0) with (1 / 2)%R; [ lra | ].
  unfold gru_z, prod, Sum. cbn. rewrite !Rmult_0_l, !Rplus_0_l. symmetry. exact logistic_0.
Qed.
Example C74_ex_lstm : let W := [[0%R]; [0%R]; [0%R]; [0%R]] in
  let c := {| l_ih := W; l_hh := W; l_bias := None; l_input_size := 1; l_hidden_size := 1; l_use_bias := false |} in
  lstm_shapes 1 1 c /\ call_lstm c [7%R] ([3%R], [4%R]) = Ok ([(tanh 2 / 2)%R], [2%R]) /\ call_lstm c [7%R; 7%R] ([3%R], [4%R]) = Err TypeError.
Proof.
  intros W c. assert (HW : is_mat 4 1 W) by (split; [ reflexivity | repeat constructor ]).
  assert (Hc : lstm_shapes 1 1 c) by (split; [ exact HW | split; [ exact HW | discriminate ] ]).
  split; [ exact Hc | ]. split; [ | apply (C74_lstm_refused 1 1); [ lia | exact Hc | left; discriminate ] ].
  rewrite (lstm_gates 1 1 c [7%R] [3%R] _ Hc eq_refl eq_refl).
  assert (Hp : forall k i, k < 4 -> i < 1 -> lstm_pre 1 c [7%R] [3%R] k i = 0%R).
  { intros k i Hk Hi. assert (i = 0) by lia. subst i. destruct k as [ | [ | [ | [ | k ] ] ] ]; try lia; unfold lstm_pre, prod, Sum; cbn; lra. }
  assert (T : tanh 0 = 0%R) by (unfold tanh; rewrite sinh_0; lra).
  unfold tab. cbn [seq map]. rewrite !Hp by lia. rewrite logistic_0, T. cbn. do 2 f_equal; f_equal; try lra. 
  replace (1 / 2 * 4 + 1 / 2 * 0)%R with 2%R by lra. lra.
Qed.
