(** C115 for recurrent cells: renumbering the hidden units renumbers the new hidden state.

    As in [Symmetry_Props], unit [j] of the new cell is unit [nth j p 0] of the old one; every gate has its own block of
    rows, and each block is renumbered. *)
From Coq Require Import Reals Lra Lia List Permutation.
From Verif Require Import Norm_Props Rnn_Model Rnn_Props.
Import ListNotations.
Local Open Scope nat_scope.
Local Open Scope list_scope.

(** *** Specification *)
Definition pick {A} (p : list nat) (l : list A) (d : A) : list A := map (fun i => nth i l d) p.
(** The rows [p] of each of [g] blocks of [n] rows. *)
Definition gates_of (g n : nat) (p : list nat) : list nat := concat (map (fun b => map (fun i => b * n + i) p) (seq 0 g)).
Definition pick_bias (p : list nat) (b : option (list R)) : option (list R) := match b with Some l => Some (pick p l 0%R) | None => None end.
Definition pick_rows (p : list nat) (W : list (list R)) : list (list R) := pick p W [].
Definition pick_columns (p : list nat) (W : list (list R)) : list (list R) := map (fun row => pick p row 0%R) W.
Definition renumber_gru (H : nat) (p : list nat) (c : gru) : gru :=
  {| g_ih := pick_rows (gates_of 3 H p) (g_ih c); g_hh := pick_columns p (pick_rows (gates_of 3 H p) (g_hh c));
     g_bias := pick_bias (gates_of 3 H p) (g_bias c); g_bias_n := pick_bias p (g_bias_n c);
     g_input_size := g_input_size c; g_hidden_size := g_hidden_size c; g_use_bias := g_use_bias c |}.
Definition renumber_lstm (H : nat) (p : list nat) (c : lstm) : lstm :=
  {| l_ih := pick_rows (gates_of 4 H p) (l_ih c); l_hh := pick_columns p (pick_rows (gates_of 4 H p) (l_hh c));
     l_bias := pick_bias (gates_of 4 H p) (l_bias c);
     l_input_size := l_input_size c; l_hidden_size := l_hidden_size c; l_use_bias := l_use_bias c |}.

(** *** Lemmas *)
Lemma pick_length {A} p (l : list A) d : length (pick p l d) = length p.
Proof. apply map_length. Qed.
Lemma pick_nth {A} p (l : list A) d j e : j < length p -> nth j (pick p l d) e = nth (nth j p 0) l d.
Proof.
  intros H. unfold pick. rewrite nth_indep with (d' := nth 0 l d) by (rewrite map_length; exact H).
  rewrite (map_nth (fun i => nth i l d)). reflexivity.
Qed.
Lemma pick_length_seq p n : Permutation p (seq 0 n) -> length p = n.
Proof. intros H. rewrite (Permutation_length H). apply seq_length. Qed.
Lemma pick_bound p n i : Permutation p (seq 0 n) -> i < n -> nth i p 0 < n.
Proof.
  intros H Hi. assert (Hin : In (nth i p 0) p) by (apply nth_In; rewrite (pick_length_seq p n H); exact Hi).
  apply (Permutation_in _ H) in Hin. apply in_seq in Hin. lia.
Qed.
Lemma gates_length g n p : length (gates_of g n p) = g * length p.
Proof.
  unfold gates_of. generalize 0 as a. induction g as [|g IH]; intros a; [reflexivity|]. cbn [seq map concat].
  rewrite app_length, map_length, IH. reflexivity.
Qed.
Lemma gates_nth g n p : length p = n -> forall b i, b < g -> i < n -> nth (b * n + i) (gates_of g n p) 0 = b * n + nth i p 0.
Proof.
  intros Lp b i Hb Hi. unfold gates_of.
  enough (G : forall a, nth (b * n + i) (concat (map (fun b => map (fun i => b * n + i) p) (seq a g))) 0 = (a + b) * n + nth i p 0) by apply (G 0).
  revert g Hb. induction b as [|b IH]; intros g Hb a; destruct g as [|g]; try lia; cbn [seq map concat].
  - rewrite app_nth1 by (rewrite map_length; cbn [Nat.mul]; lia). cbn [Nat.mul Nat.add]. rewrite Nat.add_0_r.
    rewrite (nth_indep _ 0 (a * n + 0)) by (rewrite map_length; lia). rewrite (map_nth (fun i => a * n + i)). reflexivity.
  - rewrite app_nth2 by (rewrite map_length, Lp; cbn [Nat.mul]; lia). rewrite map_length, Lp.
    replace (S b * n + i - n) with (b * n + i) by (cbn [Nat.mul]; lia). rewrite IH by lia. f_equal. f_equal. lia.
Qed.
Lemma gates_bound g n p c : (forall i, In i p -> i < n) -> In c (gates_of g n p) -> c < g * n.
Proof.
  intros Hp Hc. unfold gates_of in Hc. apply in_concat in Hc as (l & Hl & Hc). apply in_map_iff in Hl as (b & <- & Hb).
  apply in_map_iff in Hc as (i & <- & Hi). apply in_seq in Hb. specialize (Hp i Hi).
  apply Nat.lt_le_trans with (S b * n); [cbn [Nat.mul]; lia|apply Nat.mul_le_mono_r; lia].
Qed.
Lemma gate_slot b g n i : b < g -> i < n -> b * n + i < g * n.
Proof. intros Hb Hi. apply Nat.lt_le_trans with (S b * n); [cbn [Nat.mul]; lia|apply Nat.mul_le_mono_r; exact Hb]. Qed.
Lemma perm_in p n i : Permutation p (seq 0 n) -> In i p -> i < n.
Proof. intros H Hi. apply (Permutation_in _ H) in Hi. apply in_seq in Hi. lia. Qed.

Lemma Sum_perm n p f : Permutation p (seq 0 n) -> Sum n (fun j => f (nth j p 0)) = Sum n f.
Proof.
  intros H. unfold Sum. rewrite <- (map_map (fun j => nth j p 0) f).
  rewrite <- (pick_length_seq p n H) at 1. rewrite (Norm_Props.map_nth_seq p 0).
  apply (Permutation_map f) in H. revert H. generalize (map f p), (map f (seq 0 n)). intros l l'.
  induction 1 as [|x l l' _ IH|x y l|l l' l'' _ IH1 _ IH2]; cbn; [reflexivity|rewrite IH; reflexivity|lra|congruence].
Qed.
Lemma rows_mat g n i p W : Permutation p (seq 0 n) -> is_mat (g * n) i W -> is_mat (g * n) i (pick_rows (gates_of g n p) W).
Proof.
  intros Hp [Hm Hn]. split.
  - unfold pick_rows. rewrite pick_length, gates_length, (pick_length_seq p n Hp). reflexivity.
  - rewrite Forall_forall in *. intros r Hr. unfold pick_rows, pick in Hr. apply in_map_iff in Hr as (c & <- & Hc).
    apply Hn, nth_In. rewrite Hm. apply (gates_bound g n p c); [intros j; apply perm_in, Hp|exact Hc].
Qed.
Lemma columns_mat m n p W : Permutation p (seq 0 n) -> is_mat m n W -> is_mat m n (pick_columns p W).
Proof.
  intros Hp [Hm Hn]. split.
  - unfold pick_columns. rewrite map_length. exact Hm.
  - rewrite Forall_forall. intros r Hr. unfold pick_columns in Hr. apply in_map_iff in Hr as (w & <- & _).
    rewrite pick_length. apply pick_length_seq, Hp.
Qed.
Lemma bias_pick use b q m : is_bias use b m -> is_bias use (pick_bias q b) (length q).
Proof. intros H E. destruct (H E) as (l & -> & _). eexists. split; [reflexivity|]. apply pick_length. Qed.
Lemma prod_rows P W x c : c < length P -> prod (pick_rows P W) x c = prod W x (nth c P 0).
Proof. intros H. unfold prod, pick_rows. rewrite pick_nth by exact H. reflexivity. Qed.
Lemma prod_columns p n m W h c : Permutation p (seq 0 n) -> is_mat m n W -> length h = n -> c < m ->
  prod (pick_columns p W) (pick p h 0%R) c = prod W h c.
Proof.
  intros Hp [Hm Hn] Hh Hc. unfold prod. rewrite pick_length, (pick_length_seq p n Hp), Hh.
  rewrite <- (Sum_perm n p (fun j => nth j (nth c W []) 0 * nth j h 0)%R Hp). apply Sum_ext. intros j Hj.
  assert (Hjp : j < length p) by (rewrite (pick_length_seq p n Hp); exact Hj).
  unfold pick_columns. rewrite (nth_indep _ [] (pick p [] 0%R)) by (rewrite map_length, Hm; exact Hc).
  rewrite (map_nth (fun row => pick p row 0%R)), !pick_nth by exact Hjp. reflexivity.
Qed.
Lemma bias_at_pick use b q c : c < length q -> is_bias use b (length q) -> bias_at use (pick_bias q b) c = bias_at use b (nth c q 0).
Proof.
  intros Hc Hb. unfold bias_at. destruct use; [|reflexivity]. destruct (Hb eq_refl) as (l & -> & _). cbn [pick_bias]. apply pick_nth, Hc.
Qed.

(** C115. A GRU cell with renumbered units maps the renumbered hidden state to the renumbered new one. *)
Theorem C115_gru : forall I H c p x h, gru_shapes I H c -> Permutation p (seq 0 H) -> length x = I -> length h = H ->
  exists h', call_gru c x h = Ok h' /\ call_gru (renumber_gru H p c) x (pick p h 0%R) = Ok (pick p h' 0%R).
Proof.
  intros I H c p x h Hc Hp Hx Hh.
  assert (Lp : length p = H) by (apply pick_length_seq, Hp).
  pose proof Hc as (Hih & Hhh & Hb & Hbn).
  assert (Lg : length (gates_of 3 H p) = 3 * H) by (rewrite gates_length, Lp; reflexivity).
  assert (Hc' : gru_shapes I H (renumber_gru H p c)).
  { unfold gru_shapes. cbn [renumber_gru g_ih g_hh g_use_bias g_bias g_bias_n]. split; [apply rows_mat; assumption|].
    split; [apply columns_mat; [exact Hp|apply rows_mat; assumption]|]. split; [rewrite <- Lg; eapply bias_pick, Hb|pose proof (bias_pick _ _ p _ Hbn) as B; rewrite Lp in B; exact B]. }
  destruct (C74_gru_call I H c x h Hc Hx Hh) as (h' & E & Lh' & Hf). exists h'. split; [exact E|].
  destruct (C74_gru_call I H _ x (pick p h 0%R) Hc' Hx (eq_trans (pick_length _ _ _) Lp)) as (h2 & E2 & Lh2 & Hf2).
  rewrite E2. f_equal. apply nth_ext with (d := 0%R) (d' := 0%R); [rewrite pick_length; congruence|].
  intros i Hi. rewrite Lh2 in Hi. assert (Hip : i < length p) by (rewrite Lp; exact Hi).
  rewrite Hf2 by exact Hi. rewrite !pick_nth by exact Hip. rewrite Hf by (apply pick_bound; assumption).
  assert (G : forall b, b < 3 -> nth (b * H + i) (gates_of 3 H p) 0 = b * H + nth i p 0) by (intros b Hb'; apply gates_nth; assumption).
  assert (Bd : forall b, b < 3 -> b * H + i < length (gates_of 3 H p)) by (intros b Hb'; rewrite Lg; apply gate_slot; assumption).
  assert (Eih : forall b, b < 3 -> prod (g_ih (renumber_gru H p c)) x (b * H + i) = prod (g_ih c) x (b * H + nth i p 0)).
  { intros b Hb'. cbn [renumber_gru g_ih]. rewrite prod_rows by (apply Bd, Hb'). rewrite G by exact Hb'. reflexivity. }
  assert (Ehh : forall b, b < 3 -> prod (g_hh (renumber_gru H p c)) (pick p h 0%R) (b * H + i) = prod (g_hh c) h (b * H + nth i p 0)).
  { intros b Hb'. cbn [renumber_gru g_hh].
    rewrite (prod_columns p H (3 * H)); [|exact Hp|apply rows_mat; assumption|exact Hh|rewrite <- Lg; apply Bd, Hb'].
    rewrite prod_rows by (apply Bd, Hb'). rewrite G by exact Hb'. reflexivity. }
  assert (Eb : forall b, b < 3 -> bias_at (g_use_bias c) (g_bias (renumber_gru H p c)) (b * H + i) = bias_at (g_use_bias c) (g_bias c) (b * H + nth i p 0)).
  { intros b Hb'. cbn [renumber_gru g_bias]. rewrite bias_at_pick; [|apply Bd, Hb'|rewrite Lg; exact Hb]. rewrite G by exact Hb'. reflexivity. }
  assert (Ebn : bias_at (g_use_bias c) (g_bias_n (renumber_gru H p c)) i = bias_at (g_use_bias c) (g_bias_n c) (nth i p 0)).
  { cbn [renumber_gru g_bias_n]. apply bias_at_pick; [exact Hip|rewrite Lp; exact Hbn]. }
  assert (Er : gru_r (renumber_gru H p c) x (pick p h 0%R) i = gru_r c x h (nth i p 0)).
  { unfold gru_r. specialize (Eih 0 ltac:(lia)). specialize (Ehh 0 ltac:(lia)). specialize (Eb 0 ltac:(lia)). cbn [Nat.mul Nat.add] in Eih, Ehh, Eb.
    change (g_use_bias (renumber_gru H p c)) with (g_use_bias c). rewrite Eih, Ehh, Eb. reflexivity. }
  assert (Ez : gru_z H (renumber_gru H p c) x (pick p h 0%R) i = gru_z H c x h (nth i p 0)).
  { unfold gru_z. specialize (Eih 1 ltac:(lia)). specialize (Ehh 1 ltac:(lia)). specialize (Eb 1 ltac:(lia)). rewrite !Nat.mul_1_l in Eih, Ehh, Eb.
    change (g_use_bias (renumber_gru H p c)) with (g_use_bias c). rewrite Eih, Ehh, Eb. reflexivity. }
  assert (En : gru_n H (renumber_gru H p c) x (pick p h 0%R) i = gru_n H c x h (nth i p 0)).
  { unfold gru_n. rewrite Er. specialize (Eih 2 ltac:(lia)). specialize (Ehh 2 ltac:(lia)). specialize (Eb 2 ltac:(lia)).
    change (g_use_bias (renumber_gru H p c)) with (g_use_bias c). rewrite Eih, Ehh, Eb, Ebn. reflexivity. }
  rewrite Ez, En. reflexivity.
Qed.

(** C115. An LSTM cell with renumbered units maps the renumbered hidden vector and cell vector to the renumbered new ones. *)
Theorem C115_lstm : forall I H c p x h cs, lstm_shapes I H c -> Permutation p (seq 0 H) -> length x = I -> length h = H -> length cs = H ->
  exists h' c', call_lstm c x (h, cs) = Ok (h', c') /\
    call_lstm (renumber_lstm H p c) x (pick p h 0%R, pick p cs 0%R) = Ok (pick p h' 0%R, pick p c' 0%R).
Proof.
  intros I H c p x h cs Hc Hp Hx Hh Hcs.
  assert (Lp : length p = H) by (apply pick_length_seq, Hp).
  pose proof Hc as (Hih & Hhh & Hb).
  assert (Lg : length (gates_of 4 H p) = 4 * H) by (rewrite gates_length, Lp; reflexivity).
  assert (Hc' : lstm_shapes I H (renumber_lstm H p c)).
  { unfold lstm_shapes. cbn [renumber_lstm l_ih l_hh l_use_bias l_bias]. split; [apply rows_mat; assumption|].
    split; [apply columns_mat; [exact Hp|apply rows_mat; assumption]|]. rewrite <- Lg. eapply bias_pick, Hb. }
  destruct (C74_lstm_call I H c x h cs Hc Hx Hh Hcs) as (h' & c' & E & Lh' & Lc' & Hf). exists h', c'. split; [exact E|].
  destruct (C74_lstm_call I H _ x (pick p h 0%R) (pick p cs 0%R) Hc' Hx (eq_trans (pick_length _ _ _) Lp) (eq_trans (pick_length _ _ _) Lp))
    as (h2 & c2 & E2 & Lh2 & Lc2 & Hf2).
  rewrite E2.
  assert (P : forall i k, i < H -> k < 4 -> lstm_pre H (renumber_lstm H p c) x (pick p h 0%R) k i = lstm_pre H c x h k (nth i p 0)).
  { intros i k Hi Hk. unfold lstm_pre. cbn [renumber_lstm l_ih l_hh l_use_bias l_bias].
    assert (Bd : k * H + i < length (gates_of 4 H p)) by (rewrite Lg; apply gate_slot; assumption).
    rewrite (prod_columns p H (4 * H)); [|exact Hp|apply rows_mat; assumption|exact Hh|rewrite <- Lg; exact Bd].
    rewrite !prod_rows by exact Bd. rewrite bias_at_pick; [|exact Bd|rewrite Lg; exact Hb].
    rewrite (gates_nth 4 H p Lp k i Hk Hi). reflexivity. }
  assert (S : forall i, i < H -> nth i c2 0%R = nth (nth i p 0) c' 0%R /\ nth i h2 0%R = nth (nth i p 0) h' 0%R).
  { intros i Hi. destruct (Hf2 i Hi) as [A B]. destruct (Hf (nth i p 0) (pick_bound p H i Hp Hi)) as [A' B'].
    rewrite A, B, A', B'. rewrite pick_nth by (rewrite Lp; exact Hi). unfold lstm_h, lstm_c. rewrite !P by (assumption || lia). split; reflexivity. }
  f_equal. f_equal; (apply nth_ext with (d := 0%R) (d' := 0%R); [rewrite pick_length; congruence|]); intros i Hi.
  - rewrite Lh2 in Hi. rewrite pick_nth by (rewrite Lp; exact Hi). apply S, Hi.
  - rewrite Lc2 in Hi. rewrite pick_nth by (rewrite Lp; exact Hi). apply S, Hi.
Qed.

(** Two units with different weights; [C74_gru_call] shows that a call gives a result. *)
Example C115_ex_gru : let c := {| g_ih := [[1]; [2]; [3]; [4]; [5]; [6]]%R; g_hh := [[1; 2]; [3; 4]; [5; 6]; [7; 8]; [9; 10]; [11; 12]]%R;
                                  g_bias := Some [1; 2; 3; 4; 5; 6]%R; g_bias_n := Some [1; 2]%R; g_input_size := 1; g_hidden_size := 2; g_use_bias := true |} in
  gru_shapes 1 2 c /\ Permutation [1; 0] (seq 0 2) /\
  g_ih (renumber_gru 2 [1; 0] c) = [[2]; [1]; [4]; [3]; [6]; [5]]%R /\
  g_hh (renumber_gru 2 [1; 0] c) = [[4; 3]; [2; 1]; [8; 7]; [6; 5]; [12; 11]; [10; 9]]%R /\
  g_bias (renumber_gru 2 [1; 0] c) = Some [2; 1; 4; 3; 6; 5]%R /\ g_bias_n (renumber_gru 2 [1; 0] c) = Some [2; 1]%R.
Proof.
  cbn. repeat split; try reflexivity; try (repeat constructor); try (intros _; eexists; split; [reflexivity|reflexivity]).
Qed.
Print Assumptions C115_gru.
Print Assumptions C115_lstm.
