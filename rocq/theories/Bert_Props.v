(** C126: padding tokens in the BERT example. *)
From Verif Require Import Attention_Proofs Attention_Props Bert_Model.
From Coq Require Import Lia QArith.
Local Open Scope nat_scope.
Local Open Scope list_scope.

(** The elements at the positions where [mask] is true. *)
Fixpoint keep {A} (mask : list bool) (l : list A) : list A :=
  match mask, l with b :: mask', x :: l' => (if b then [x] else []) ++ keep mask' l' | _, _ => [] end.

Lemma keep_length {A B} mask (l : list A) (l' : list B) : length l = length mask -> length l' = length mask -> length (keep mask l) = length (keep mask l').
Proof.
  revert l l'. induction mask as [|b mask IH]; intros [|x l] [|x' l'] H H'; simpl in *; try discriminate; [reflexivity|].
  rewrite !app_length, (IH l l') by lia. destruct b; reflexivity.
Qed.
Lemma keep_map {A B} (f : A -> B) mask l : keep mask (map f l) = map f (keep mask l).
Proof. revert l. induction mask as [|[] mask IH]; intros [|x l]; simpl; try reflexivity; rewrite IH; reflexivity. Qed.
Lemma keep_combine {A B} mask : forall (l : list A) (l' : list B), keep mask (List.combine l l') = List.combine (keep mask l) (keep mask l') \/ length l <> length l'.
Proof.
  induction mask as [|b mask IH]; intros [|x l] [|x' l']; simpl; auto. destruct (IH l l') as [-> | H]; [|right; simpl; lia]. left. destruct b; reflexivity.
Qed.
Lemma keep_mapM {A B} (f : A -> res B) mask : forall l r, length l = length mask -> mapM f l = Ok r -> mapM f (keep mask l) = Ok (keep mask r).
Proof.
  induction mask as [|b mask IH]; intros [|x l] r Hl H; simpl in *; try discriminate; [inversion H; reflexivity|].
  bind_inv. rename Hb into H1, Hb1 into H2. apply IH in H2; [|lia]. destruct b; simpl; [rewrite H1; simpl|]; rewrite H2; reflexivity.
Qed.
(** By indices. *)
Lemma keep_filter {A} (d : A) : forall mask l k, length l = length mask ->
  keep mask l = map (fun s => nth (s - k) l d) (filter (fun s => nth (s - k) mask false) (seq k (length mask))).
Proof.
  induction mask as [|b mask IH]; intros [|x l] k H; simpl in *; try discriminate; [reflexivity|]. rewrite Nat.sub_diag.
  assert (E : forall L, (forall s, In s L -> S k <= s) -> map (fun s => nth (s - S k) l d) (filter (fun s => nth (s - S k) mask false) L)
      = map (fun s => nth (s - k) (x :: l) d) (filter (fun s => nth (s - k) (b :: mask) false) L)).
  { induction L as [|s L IHL]; intros HL; [reflexivity|]. specialize (IHL (fun s H => HL s (or_intror H))). assert (S k <= s) by (apply HL; left; reflexivity).
    cbn [filter]. replace (s - k) with (S (s - S k)) by lia. change (nth (S (s - S k)) (b :: mask) false) with (nth (s - S k) mask false). destruct (nth (s - S k) mask false); [|exact IHL]. cbn [map].
    rewrite IHL. replace (s - k) with (S (s - S k)) by lia. reflexivity. }
  rewrite (IH l (S k)) by lia. rewrite E by (intros s Hs; apply in_seq in Hs; lia).
  destruct b; [|reflexivity]. cbn [map app]. rewrite Nat.sub_diag. reflexivity.
Qed.
Definition idx (mask : list bool) : list nat := filter (fun s => nth s mask false) (seq 0 (length mask)).
Lemma keep_idx {A} (d : A) mask l : length l = length mask -> keep mask l = map (fun s => nth s l d) (idx mask).
Proof.
  intros H. rewrite (keep_filter d mask l 0 H). unfold idx.
  rewrite (filter_ext (fun s => nth (s - 0) mask false) (fun s => nth s mask false)) by (intros s; rewrite Nat.sub_0_r; reflexivity).
  apply map_ext. intros s. rewrite Nat.sub_0_r. reflexivity.
Qed.
Lemma keep_mask mask : keep mask mask = repeat true (length (keep mask mask)).
Proof. induction mask as [|[] mask IH]; simpl; [reflexivity | rewrite IH at 1; reflexivity | exact IH]. Qed.

Lemma nth_repeat_lt {A} (x d : A) : forall n i, i < n -> nth i (repeat x n) d = x.
Proof. induction n; intros [|i] H; simpl; try lia; [reflexivity|]. apply IHn. lia. Qed.

Section Props.
  Variables (V : Type) (zero : V) (add mul sub div vmax : V -> V -> V) (exp gelu tanh : V -> V) (sqrt : nat -> V) (fmin : V).
  Notation mat := (list (list V)).
  Notation mha_call := (call_mha V unit zero add mul sub div vmax exp sqrt fmin (fun _ _ => []) (fun _ w => Ok w)).
  Notation bigsum := (Attention_Spec.bigsum V zero add).
  Notation bigmax := (Attention_Spec.bigmax V vmax).
  Notation entry := (entry V zero).
  Notation run := (run V zero add mul).
  Notation logit := (Attention_Spec.logit V zero add mul div sqrt).
  Notation layer := (layer V).
  Notation call_layer := (call_layer V zero add mul sub div vmax exp gelu sqrt fmin).
  Notation call_layers := (call_layers V zero add mul sub div vmax exp gelu sqrt fmin).
  Notation encode := (encode V zero add mul sub div vmax exp gelu tanh sqrt fmin).

  Section Numbers.
    Hypothesis add_assoc : forall x y z, add x (add y z) = add (add x y) z.
    Hypothesis add_0_l : forall x, add zero x = x.
    Hypothesis mul_0_l : forall x, mul zero x = zero.
    Hypothesis div_0_l : forall x, div zero x = zero.
    Hypothesis vmax_sel : forall x y, vmax x y = x \/ vmax x y = y.

    (** [v] is so far above the smallest float that the exponential of the difference is zero. *)
    Definition far_above (v : V) : Prop := vmax v fmin = v /\ vmax fmin v = v /\ exp (sub fmin v) = zero.

    Lemma bigsum_keep mask f : (forall s, s < length mask -> nth s mask false = false -> f s = zero) ->
      bigsum (length mask) f = bigsum (length (idx mask)) (fun r => f (nth r (idx mask) 0)).
    Proof.
      intros H. unfold Attention_Spec.bigsum. rewrite <- (map_map (fun r => nth r (idx mask) 0) f), map_nth_seq. unfold idx.
      assert (E : forall L, (forall s, In s L -> s < length mask) -> fold_right add zero (map f L) = fold_right add zero (map f (filter (fun s => nth s mask false) L))).
      { induction L as [|s L IH]; intros HL; [reflexivity|]. specialize (IH (fun s H => HL s (or_intror H))). cbn [map fold_right filter].
        destruct (nth s mask false) eqn:E; cbn [map fold_right]; rewrite IH; [reflexivity|]. rewrite (H s) by (try apply HL; try left; auto). apply add_0_l. }
      apply E. intros s Hs. apply in_seq in Hs. lia.
    Qed.
    Lemma max_above (f : nat -> V) (real : nat -> bool) : forall L a, (forall s, In s L -> real s = false -> f s = fmin) -> (forall s, In s L -> real s = true -> far_above (f s)) -> far_above a ->
      fold_left vmax (map f L) a = fold_left vmax (map f (filter real L)) a /\ far_above (fold_left vmax (map f L) a).
    Proof.
      induction L as [|s L IH]; intros a H1 H2 Ha; [split; [reflexivity | exact Ha]|]. cbn [map fold_left filter].
      assert (IH' := fun a => IH a (fun s Hs => H1 s (or_intror Hs)) (fun s Hs => H2 s (or_intror Hs))).
      destruct (real s) eqn:E; cbn [map fold_left].
      - apply IH'. destruct (vmax_sel a (f s)) as [-> | ->]; [exact Ha | apply H2; [left; reflexivity | exact E]].
      - rewrite (H1 s (or_introl eq_refl) E). destruct Ha as (Ha & Hb). rewrite Ha. apply IH'. split; assumption.
    Qed.
    Lemma max_fmin (f : nat -> V) (real : nat -> bool) : forall L, (forall s, In s L -> real s = false -> f s = fmin) -> (forall s, In s L -> real s = true -> far_above (f s)) ->
      match filter real L with [] => True | x :: L' => fold_left vmax (map f L) fmin = fold_left vmax (map f L') (f x) /\ far_above (fold_left vmax (map f L) fmin) end.
    Proof.
      induction L as [|s L IH]; intros H1 H2; [exact I|]. cbn [filter].
      assert (IH' := IH (fun s Hs => H1 s (or_intror Hs)) (fun s Hs => H2 s (or_intror Hs))).
      destruct (real s) eqn:E; cbn [map fold_left].
      - assert (Hf : far_above (f s)) by (apply H2; [left; reflexivity | exact E]). destruct Hf as (A & B & C). rewrite B.
        apply max_above; [intros; apply H1; [right|]; assumption | intros; apply H2; [right|]; assumption | split; [exact A | split; assumption]].
      - rewrite (H1 s (or_introl eq_refl) E). destruct (filter real L); [exact I|]. replace (vmax fmin fmin) with fmin by (destruct (vmax_sel fmin fmin) as [-> | ->]; reflexivity). exact IH'.
    Qed.
    Lemma bigmax_keep mask f : idx mask <> [] ->
      (forall s, s < length mask -> nth s mask false = false -> f s = fmin) -> (forall s, s < length mask -> nth s mask false = true -> far_above (f s)) ->
      bigmax (length mask) f = bigmax (length (idx mask)) (fun r => f (nth r (idx mask) 0)) /\ far_above (bigmax (length mask) f).
    Proof.
      intros Hne H1 H2. assert (B : forall n g, n <> 0 -> bigmax n g = match map g (seq 0 n) with [] => g 0 | x :: l => fold_left vmax l x end).
      { intros [|n] g Hn; [congruence|]. unfold Attention_Spec.bigmax. cbn [seq map]. replace (S n - 1) with n by lia. reflexivity. }
      rewrite (B (length (idx mask))) by (destruct (idx mask); [congruence | discriminate]).
      rewrite <- (map_map (fun r => nth r (idx mask) 0) f), map_nth_seq.
      destruct (length mask) as [|n] eqn:En; [exfalso; apply Hne; unfold idx; rewrite En; reflexivity|].
      rewrite B by discriminate. cbn [seq map]. unfold idx in *. rewrite En in *. cbn [seq filter] in *.
      assert (H1' : forall s, In s (seq 1 n) -> nth s mask false = false -> f s = fmin) by (intros s Hs; apply in_seq in Hs; apply H1; lia).
      assert (H2' : forall s, In s (seq 1 n) -> nth s mask false = true -> far_above (f s)) by (intros s Hs; apply in_seq in Hs; apply H2; lia).
      destruct (nth 0 mask false) eqn:E0.
      - cbn [map]. apply max_above with (real := fun s => nth s mask false); [exact H1' | exact H2' | apply H2; [lia | exact E0]].
      - rewrite (H1 0) by (try lia; exact E0). pose proof (max_fmin f (fun s => nth s mask false) (seq 1 n) H1' H2') as M.
        destruct (filter _ (seq 1 n)) as [|x L'] eqn:EL; [congruence|]. cbn [map]. exact M.
    Qed.

    Lemma entry_keep mask (x : mat) r : length x = length mask -> r < length (idx mask) -> entry (keep mask x) r = entry x (nth r (idx mask) 0).
    Proof using.
      clear. intros H Hr. unfold Attention_Proofs.entry. f_equal. rewrite (keep_idx [] mask x H).
      rewrite (nth_indep _ [] (nth 0 x [])) by (rewrite map_length; exact Hr). rewrite (map_nth (fun s => nth s x []) (idx mask) 0 r). reflexivity.
    Qed.
    Lemma idx_keep {A} mask (l : list A) : length l = length mask -> length (keep mask l) = length (idx mask).
    Proof using. clear. intros H. destruct l as [|d l]; [destruct mask; [reflexivity | discriminate]|]. rewrite (keep_idx d mask _ H), map_length. reflexivity. Qed.
    Lemma idx_real mask r : r < length (idx mask) -> nth r (idx mask) 0 < length mask /\ nth (nth r (idx mask) 0) mask false = true.
    Proof using. clear. intros H. apply (nth_In _ 0) in H. apply filter_In in H as [H1 H2]. apply in_seq in H1. split; [lia | exact H2]. Qed.

    (** What a layer's projections of real tokens give as logits. *)
    Definition qrow (m : mha V) (x : mat) i s j := run (query_proj V m) (query_size V m) (entry x) s (i * qk_size V m + j).
    Definition krow (m : mha V) (x : mat) i s j := run (key_proj V m) (key_size V m) (entry x) s (i * qk_size V m + j).
    Definition quiet_at (m : mha V) (mask : list bool) (x : mat) : Prop :=
      forall i s S, i < num_heads V m -> s < length x -> S < length x -> nth s mask false = true -> nth S mask false = true ->
        far_above (logit (qk_size V m) (qrow m x i) (krow m x i) s S).
    Definition square (m : mha V) (d : nat) : Prop := mha_ok V m /\ query_size V m = d /\ key_size V m = d /\ value_size V m = d /\ output_size V m = d.

    Lemma attention_keep m d mask x a : square m d -> rect V (length mask) d x -> idx mask <> [] -> quiet_at m mask x ->
      mha_call m x x x (make_self_attention_mask (num_heads V m) mask) None None = Ok a ->
      rect V (length mask) d a /\ mha_call m (keep mask x) (keep mask x) (keep mask x) (make_self_attention_mask (num_heads V m) (keep mask mask)) None None = Ok (keep mask a).
    Proof.
      intros (Hm & Hq & Hk & Hv & Ho) [Hlx Hrx] Hne Hquiet Ha.
      set (n := length mask) in *. set (x' := keep mask x). set (n' := length (idx mask)).
      assert (Hlx' : length x' = n') by (apply idx_keep; exact Hlx).
      assert (Hrx' : forall r, In r x' -> length r = d).
      { intros r Hr. unfold x' in Hr. rewrite (keep_idx [] mask x Hlx) in Hr. apply in_map_iff in Hr as (s & <- & Hs). apply filter_In in Hs as [Hs _]. apply in_seq in Hs.
        apply Hrx, nth_In. unfold n in *. lia. }
      assert (Hlm : length (keep mask mask) = n') by (apply idx_keep; reflexivity).
      set (h := num_heads V m) in *.
      set (dummy1 := fun (_ : unit) (_ _ : nat) => @nil (list V)). set (dummy2 := fun (_ : unit) (_ _ : nat) => @nil V).
      pose proof (fun D => C69_formula V unit zero add mul sub div vmax exp sqrt fmin (fun _ _ => []) dummy1 dummy2 (fun _ w => Ok w) add_assoc add_0_l m x x x
        (make_self_attention_mask h mask) None D Hm ltac:(rewrite Hq; split; [reflexivity | exact Hrx]) ltac:(rewrite Hk; split; [reflexivity | exact Hrx])
        ltac:(rewrite Hv; split; [reflexivity | exact Hrx]) ltac:(repeat split; symmetry; exact Hlx)) as F. cbv zeta in F. rewrite (F _ (fun i _ => eq_refl)) in Ha. clear F.
      pose proof (fun D => C69_formula V unit zero add mul sub div vmax exp sqrt fmin (fun _ _ => []) dummy1 dummy2 (fun _ w => Ok w) add_assoc add_0_l m x' x' x'
        (make_self_attention_mask h (keep mask mask)) None D Hm ltac:(rewrite Hq; split; [reflexivity | exact Hrx']) ltac:(rewrite Hk; split; [reflexivity | exact Hrx'])
        ltac:(rewrite Hv; split; [reflexivity | exact Hrx']) ltac:(repeat split; congruence)) as F'. cbv zeta in F'. rewrite (F' _ (fun i _ => eq_refl)). clear F'.
      rewrite Ho, Hlx in Ha. rewrite Ho, Hlx'. injection Ha as <-.
      split; [unfold Attention_Spec.tab; split; [rewrite map_length, seq_length; reflexivity | intros r Hr; apply in_map_iff in Hr as (s & <- & _); rewrite map_length, seq_length; reflexivity]|].
      f_equal. rewrite (keep_idx [] mask) by (unfold Attention_Spec.tab; rewrite map_length, seq_length; reflexivity).
      transitivity (map (fun s => nth s (Attention_Spec.tab V n d (Attention_Spec.heads_sum V zero add mul h (vo_size V m) (entry (weight V (output_proj V m))) (bias_fn V zero (output_proj V m))
         (fun i => Attention_Spec.attend V zero add mul n
            (Attention_Spec.soft V zero add sub div vmax exp n (Attention_Spec.masked V fmin (mask_fn (make_self_attention_mask h mask) i) (logit (qk_size V m) (qrow m x i) (krow m x i))))
            (fun s j => run (value_proj V m) (value_size V m) (entry x) s (i * vo_size V m + j))))) []) (idx mask)); [|reflexivity].
      assert (Ei : idx mask = map (fun r => nth r (idx mask) 0) (seq 0 n')) by (symmetry; apply map_nth_seq).
      rewrite Ei, map_map. unfold Attention_Spec.tab at 1.
      apply map_seq_ext. intros r Hr. destruct (idx_real mask r) as [Hs Hreal]; [unfold n' in Hr; lia|]. set (s := nth r (idx mask) 0) in *.
      rewrite tab_row by exact Hs. apply map_seq_ext. intros o _.
      assert (Er : forall R, R < n' -> entry x' R = entry x (nth R (idx mask) 0)) by (intros R HR; apply entry_keep; assumption).
      assert (El : forall i R, i < h -> R < n' ->
         Attention_Spec.masked V fmin (mask_fn (make_self_attention_mask h (keep mask mask)) i) (logit (qk_size V m) (qrow m x' i) (krow m x' i)) r R
         = Attention_Spec.masked V fmin (mask_fn (make_self_attention_mask h mask) i) (logit (qk_size V m) (qrow m x i) (krow m x i)) s (nth R (idx mask) 0)).
      { intros i R Hi HR. unfold Attention_Spec.masked. cbn [mask_fn make_self_attention_mask]. rewrite keep_mask, Hlm.
        rewrite !nth_repeat_lt by lia. cbn [andb]. rewrite Hreal. destruct (idx_real mask R HR) as [_ ->]. cbn [andb].
        unfold Attention_Spec.logit. apply bigsum_ext. intros j _. unfold qrow, krow, Attention_Proofs.run, Attention_Spec.affine. rewrite !Er by lia. reflexivity. }
      set (lg := fun i => Attention_Spec.masked V fmin (mask_fn (make_self_attention_mask h mask) i) (logit (qk_size V m) (qrow m x i) (krow m x i))) in *.
      set (lg' := fun i => Attention_Spec.masked V fmin (mask_fn (make_self_attention_mask h (keep mask mask)) i) (logit (qk_size V m) (qrow m x' i) (krow m x' i))) in *.
      assert (Hun : forall i S, S < n -> nth S mask false = false -> lg i s S = fmin).
      { intros i S _ HS. unfold lg, Attention_Spec.masked. cbn [mask_fn make_self_attention_mask]. rewrite HS, andb_false_r. reflexivity. }
      assert (Hre : forall i S, i < h -> S < n -> nth S mask false = true -> far_above (lg i s S)).
      { intros i S Hi HS HSr. unfold lg, Attention_Spec.masked. cbn [mask_fn make_self_attention_mask]. rewrite HSr, Hreal. cbn [andb]. apply Hquiet; try assumption; rewrite Hlx; assumption. }
      assert (Em : forall i, i < h -> bigmax n (lg i s) = bigmax n' (lg' i r) /\ far_above (bigmax n (lg i s))).
      { intros i Hi. destruct (bigmax_keep mask (lg i s) Hne (fun S => Hun i S) (fun S => Hre i S Hi)) as [E1 E2]. split; [|exact E2].
        etransitivity; [exact E1|]. unfold Attention_Spec.bigmax. assert (0 < n') by (unfold n'; destruct (idx mask); [congruence | simpl; lia]).
        fold n'. unfold lg, lg'. rewrite El by (try exact Hi; lia). f_equal. apply map_seq_ext. intros R HR. symmetry. apply El; [exact Hi | lia]. }
      assert (Ew : forall i R, i < h -> R < n' -> Attention_Spec.soft V zero add sub div vmax exp n' (lg' i) r R
                   = Attention_Spec.soft V zero add sub div vmax exp n (lg i) s (nth R (idx mask) 0)).
      { intros i R Hi HR. unfold Attention_Spec.soft. destruct (Em i Hi) as [E1 (_ & _ & E2)]. rewrite <- E1. unfold lg' at 1. rewrite El by assumption. fold (lg i). f_equal.
        symmetry. etransitivity; [apply (bigsum_keep mask)|].
        - intros S HS HSr. rewrite (Hun i S HS HSr). exact E2.
        - fold n'. apply bigsum_ext. intros S HS. unfold lg'. rewrite El by assumption. reflexivity. }
      assert (Ea' : forall i j, i < h ->
          Attention_Spec.attend V zero add mul n' (Attention_Spec.soft V zero add sub div vmax exp n' (lg' i)) (fun s j => run (value_proj V m) (value_size V m) (entry x') s (i * vo_size V m + j)) r j
        = Attention_Spec.attend V zero add mul n (Attention_Spec.soft V zero add sub div vmax exp n (lg i)) (fun s j => run (value_proj V m) (value_size V m) (entry x) s (i * vo_size V m + j)) s j).
      { intros i j Hi. unfold Attention_Spec.attend. symmetry. etransitivity; [apply (bigsum_keep mask)|].
        2: fold n'; apply bigsum_ext; intros S HS; rewrite Ew by assumption; unfold Attention_Proofs.run, Attention_Spec.affine; rewrite Er by exact HS; reflexivity.
        - intros S HS HSr. unfold Attention_Spec.soft. rewrite (Hun i S HS HSr). destruct (Em i Hi) as [_ (_ & _ & E2)]. rewrite E2, div_0_l. apply mul_0_l. }
      unfold Attention_Spec.heads_sum.
      assert (Es : bigsum h (fun i => bigsum (vo_size V m) (fun j => mul (entry (weight V (output_proj V m)) o (i * vo_size V m + j))
              (Attention_Spec.attend V zero add mul n' (Attention_Spec.soft V zero add sub div vmax exp n' (lg' i)) (fun s j => run (value_proj V m) (value_size V m) (entry x') s (i * vo_size V m + j)) r j)))
           = bigsum h (fun i => bigsum (vo_size V m) (fun j => mul (entry (weight V (output_proj V m)) o (i * vo_size V m + j))
              (Attention_Spec.attend V zero add mul n (Attention_Spec.soft V zero add sub div vmax exp n (lg i)) (fun s j => run (value_proj V m) (value_size V m) (entry x) s (i * vo_size V m + j)) s j)))).
      { apply bigsum_ext. intros i Hi. apply bigsum_ext. intros j _. rewrite Ea' by exact Hi. reflexivity. }
      destruct (bias_fn V zero (output_proj V m)) as [b|]; [|exact Es]. exact (f_equal (fun y => add y (b o)) Es).
    Qed.

    (** Well-formed layers of width [d]. *)
    Definition width_kept (d : nat) (f : list V -> res (list V)) : Prop := forall r r', f r = Ok r' -> length r' = d.
    Definition layer_wf (d : nat) (l : layer) : Prop := square (attention V l) d /\ width_kept d (norm1 V l) /\ width_kept d (norm2 V l).
    (** Every logit between real tokens, in every layer, is far above the smallest float. *)
    Fixpoint quiet (mask : list bool) (ls : list layer) (x : mat) : Prop :=
      match ls with
      | [] => True
      | l :: ls' => quiet_at (attention V l) mask x /\ forall y, call_layer mask l x = Ok y -> quiet mask ls' y
      end.

    Lemma mapM_rect {A} (f : A -> res (list V)) d : (forall a r, f a = Ok r -> length r = d) -> forall l r, mapM f l = Ok r -> rect V (length l) d r.
    Proof using.
      clear. intros Hf. induction l as [|a l IH]; intros r H; simpl in H; [inversion H; split; [reflexivity | intros ? []]|].
      bind_inv. rename Hb into H1, Hb1 into H2. apply IH in H2 as [H2 H3]. apply Hf in H1. split; [simpl; congruence|]. intros r [<- | Hr]; auto.
    Qed.
    Lemma layer_keep d mask l x y : layer_wf d l -> rect V (length mask) d x -> idx mask <> [] -> quiet_at (attention V l) mask x ->
      call_layer mask l x = Ok y -> rect V (length mask) d y /\ call_layer (keep mask mask) l (keep mask x) = Ok (keep mask y).
    Proof.
      intros (Hs & H1 & H2) Hx Hne Hq Hy. unfold Bert_Model.call_layer, attention_block in *. apply bind_ok in Hy as (a & Hy & Hb1). apply bind_ok in Hy as (a0 & Hb & Hb2).
      destruct (attention_keep _ _ _ _ _ Hs Hx Hne Hq Hb) as [Ra Ea]. rewrite Ea. cbn [bind].
      assert (Hl : length (List.combine a0 x) = length mask) by (rewrite combine_length, (proj1 Ra), (proj1 Hx); apply Nat.min_id).
      destruct (keep_combine mask a0 x) as [Ec | Ec]; [|rewrite (proj1 Ra), (proj1 Hx) in Ec; congruence].
      rewrite <- Ec. rewrite (keep_mapM _ mask _ _ Hl Hb2). cbn [bind].
      assert (R1 : rect V (length (List.combine a0 x)) d a) by (eapply mapM_rect; [|exact Hb2]; intros p r; apply H1).
      rewrite Hl in R1. split.
      - rewrite <- (proj1 R1). eapply mapM_rect; [|exact Hb1]. intros p r Hr. unfold ff_block in Hr. bind_inv. eapply H2. eassumption.
      - apply keep_mapM; [apply R1 | exact Hb1].
    Qed.
    Lemma layers_keep d mask : idx mask <> [] -> forall ls x ys, Forall (layer_wf d) ls -> rect V (length mask) d x -> quiet mask ls x ->
      call_layers mask ls x = Ok ys -> Forall (rect V (length mask) d) ys /\ call_layers (keep mask mask) ls (keep mask x) = Ok (map (keep mask) ys).
    Proof.
      intros Hne. induction ls as [|l ls IH]; intros x ys Hls Hx Hq H; [inversion H; split; [constructor | reflexivity]|].
      cbn [Bert_Model.call_layers] in *. apply bind_ok in H as (y & Hb & H). apply bind_ok in H as (ys' & Hb1 & H). injection H as <-. inversion Hls as [|? ? Hl Hls']. subst. destruct Hq as [Hq1 Hq2].
      destruct (layer_keep _ _ _ _ _ Hl Hx Hne Hq1 Hb) as [Ry Ey]. destruct (IH _ _ Hls' Ry (Hq2 _ Hb) Hb1) as [Rs Es].
      rewrite Ey. cbn [bind]. rewrite Es. split; [constructor; assumption | reflexivity].
    Qed.

    Definition encoder_wf (d o : nat) (e : encoder V) : Prop :=
      (forall t p s r, embed V e t p s = Ok r -> length r = d) /\ Forall (layer_wf d) (layers V e) /\ layer_ok V (pooler V e) d o.
    Notation linear_row := (linear_row V zero add mul).

    Lemma linear_row_ok l i o r : layer_ok V l i o -> length r = i -> exists y, linear_row l r = Ok y.
    Proof.
      intros Hl Hr. pose proof (through_tab V zero add mul l i o 1 (entry [r]) Hl) as T.
      rewrite <- (rect_tab V zero 1 i [r]) in T by (split; [reflexivity | intros ? [<- | []]; exact Hr]).
      unfold through in T. cbn [mapM] in T. fold (linear_row l r) in T. apply bind_ok in T as (y & T & _). exists y. exact T.
    Qed.
    Lemma token_mask_keep tokens : token_mask (keep (token_mask tokens) tokens) = keep (token_mask tokens) (token_mask tokens).
    Proof using. clear. unfold token_mask at 1. rewrite <- keep_map. reflexivity. Qed.
    Lemma real_idx tokens : (exists t, In t tokens /\ t <> 0) -> idx (token_mask tokens) <> [].
    Proof using.
      clear. intros (t & Hin & Ht) E. assert (L : length (keep (token_mask tokens) tokens) = 0).
      { rewrite idx_keep by (unfold token_mask; rewrite map_length; reflexivity). rewrite E. reflexivity. }
      clear E. induction tokens as [|x tokens IH]; [destruct Hin|]. simpl in L. rewrite app_length in L. destruct Hin as [-> | Hin].
      - destruct t; [congruence|]. simpl in L. lia.
      - apply IH; [exact Hin | lia].
    Qed.

    (** Encoding is the encoding without the padding: at every token that is not padding, in every layer, and in the pooled output if the first
        token is not padding. *)
    Theorem C126_padding : forall d o e tokens positions segments embs outs p,
      encoder_wf d o e -> (exists t, In t tokens /\ t <> 0) ->
      encode e tokens positions segments = Ok (embs, outs, p) -> quiet (token_mask tokens) (layers V e) embs ->
      let real := map (fun t => negb (Nat.eqb t 0)) tokens in
      exists p', encode e (keep real tokens) (keep real positions) (keep real segments) = Ok (keep real embs, map (keep real) outs, p')
        /\ (hd 0 tokens <> 0 -> p' = p).
    Proof.
      intros d o e tokens positions segments embs outs p (He & Hls & Hp) Hreal H Hq. cbv zeta. fold (token_mask tokens). set (m := token_mask tokens) in *.
      assert (Hm : length tokens = length m) by (unfold m, token_mask; rewrite map_length; reflexivity).
      unfold Bert_Model.encode in *. destruct (_ && _) eqn:E in H; [|discriminate]. cbn [negb] in H. apply andb_true_iff in E as [E1 E2]. apply Nat.eqb_eq in E1, E2.
      rewrite (keep_length m positions tokens), (keep_length m segments tokens), !Nat.eqb_refl by congruence. cbn [andb negb].
      apply bind_ok in H as (embs' & Hembs & H). apply bind_ok in H as (outs' & Houts & H).
      destruct (keep_combine m tokens (List.combine positions segments)) as [Ec | Ec]; [|rewrite combine_length, E1, E2, Nat.min_id in Ec; congruence].
      destruct (keep_combine m positions segments) as [Ec' | Ec']; [|congruence]. rewrite <- Ec', <- Ec.
      assert (Hlc : length (List.combine tokens (List.combine positions segments)) = length m) by (rewrite !combine_length, E1, E2, !Nat.min_id; exact Hm).
      rewrite (keep_mapM _ m _ _ Hlc Hembs). cbn [bind].
      assert (Re : rect V (length m) d embs') by (rewrite <- Hlc; eapply mapM_rect; [|exact Hembs]; intros a r Hr; eapply He; exact Hr).
      assert (Hbb : embs' = embs /\ outs' = outs).
      { destruct (last outs' embs') as [|f r]; [discriminate|]. apply bind_ok in H as (y & _ & H). injection H as -> -> _. auto. }
      destruct Hbb as [-> ->].
      pose proof (real_idx tokens Hreal) as Hidx. fold m in Hidx.
      destruct (layers_keep d m Hidx _ _ _ Hls Re Hq Houts) as [Ro Eo]. unfold m at 1. rewrite token_mask_keep. fold m. rewrite Eo. cbn [bind].
      assert (Rl : rect V (length m) d (last outs embs)).
      { clear - Ro Re. induction outs as [|x outs IH]; [exact Re|]. inversion Ro. subst. destruct outs; [assumption | apply IH; assumption]. }
      assert (El : last (map (keep m) outs) (keep m embs) = keep m (last outs embs)).
      { clear. induction outs as [|x outs IH]; [reflexivity|]. destruct outs; [reflexivity | exact IH]. }
      rewrite El. destruct (keep m (last outs embs)) as [|f' r'] eqn:Ek.
      - exfalso. assert (L : length (keep m (last outs embs)) = length (idx m)) by (apply idx_keep; apply Rl). rewrite Ek in L. destruct (idx m); [congruence | discriminate].
      - assert (Hf' : length f' = d).
        { assert (Hin : In f' (keep m (last outs embs))) by (rewrite Ek; left; reflexivity). rewrite (keep_idx [] m _ (proj1 Rl)) in Hin. apply in_map_iff in Hin as (s & <- & Hs).
          apply filter_In in Hs as [Hs _]. apply in_seq in Hs. apply (proj2 Rl), nth_In. rewrite (proj1 Rl). lia. }
        destruct (linear_row_ok _ _ _ _ Hp Hf') as [y Hy]. rewrite Hy. cbn [bind]. exists (map tanh y). split; [reflexivity|].
        intros Hhd. destruct (last outs embs) as [|f r] eqn:El'; [discriminate|]. apply bind_ok in H as (y' & Hy' & H). injection H as <-.
        destruct tokens as [|t tokens]; [simpl in Hhd; congruence|]. simpl in Hhd. unfold m in Ek. simpl in Ek. destruct t; [congruence|]. simpl in Ek. injection Ek as <- _. congruence.
    Qed.

    (** So the amount and place of the padding do not matter: two inputs with the same real tokens in the same order (with their position and
        segment ids) have the same outputs for these, and the same pooled output if both begin with a real token. *)
    Definition real {A} (tokens : list nat) (l : list A) : list A := keep (map (fun t => negb (Nat.eqb t 0)) tokens) l.
    Theorem C126_irrelevant : forall d o e t1 p1 s1 t2 p2 s2 embs1 outs1 out1 embs2 outs2 out2,
      encoder_wf d o e -> (exists t, In t t1 /\ t <> 0) -> real t1 t1 = real t2 t2 -> real t1 p1 = real t2 p2 -> real t1 s1 = real t2 s2 ->
      encode e t1 p1 s1 = Ok (embs1, outs1, out1) -> quiet (token_mask t1) (layers V e) embs1 ->
      encode e t2 p2 s2 = Ok (embs2, outs2, out2) -> quiet (token_mask t2) (layers V e) embs2 ->
      real t1 embs1 = real t2 embs2 /\ map (real t1) outs1 = map (real t2) outs2 /\ (hd 0 t1 <> 0 -> hd 0 t2 <> 0 -> out1 = out2).
    Proof.
      intros d o e t1 p1 s1 t2 p2 s2 embs1 outs1 out1 embs2 outs2 out2 He Hr1 Et Ep Es H1 Q1 H2 Q2.
      assert (Hr2 : exists t, In t t2 /\ t <> 0).
      { destruct Hr1 as (t & Hin & Ht). exists t. split; [|exact Ht].
        assert (X : In t (real t1 t1)).
        { clear - Hin Ht. induction t1 as [|x l IH]; [destruct Hin|]. unfold real in *. simpl. apply in_or_app. destruct Hin as [-> | Hin]; [left; destruct t; [congruence | left; reflexivity] | right; auto]. }
        rewrite Et in X. clear - X. induction t2 as [|x l IH]; [destruct X|]. unfold real in *. simpl in X. apply in_app_iff in X as [X|X]; [destruct x; [destruct X | destruct X as [<- | []]; left; reflexivity] | right; auto]. }
      destruct (C126_padding d o e t1 p1 s1 embs1 outs1 out1 He Hr1 H1 Q1) as (q1 & A1 & B1).
      destruct (C126_padding d o e t2 p2 s2 embs2 outs2 out2 He Hr2 H2 Q2) as (q2 & A2 & B2).
      unfold real in *. rewrite Et, Ep, Es, A2 in A1. injection A1 as X Y Z. split; [exact (eq_sym X)|]. split; [exact (eq_sym Y)|]. intros U1 U2. rewrite <- (B1 U1), <- (B2 U2). congruence.
    Qed.
  End Numbers.
End Props.
Print Assumptions C126_padding.
Print Assumptions C126_irrelevant.

(** An encoder over the integers, of width 1 with one layer: [exp] is 1 above -1000 and 0 below, division is dropped. *)
Section Concrete.
  Let V := Z.
  Let one_by_one : Mlp_Model.linear V := {| weight := [[1%Z]]; bias := None; in_features := Size 1; out_features := Size 1; use_bias := false |}.
  Let m : mha V := {| query_proj := one_by_one; key_proj := one_by_one; value_proj := one_by_one; output_proj := one_by_one;
              num_heads := 1; query_size := 1; key_size := 1; value_size := 1; output_size := 1; qk_size := 1; vo_size := 1 |}.
  Let id (r : list V) : res (list V) := match r with [x] => Ok [x] | _ => Err TypeError end.
  Definition tiny : encoder V := mk_encoder V (fun t p s => Ok [(Z.of_nat t + 10 * Z.of_nat p)%Z]) [mk_layer V m id one_by_one one_by_one id] one_by_one.
End Concrete.
Definition zexp (x : Z) : Z := if Z.ltb x (-1000) then 0%Z else 1%Z.
Notation tiny_encode := (encode Z 0%Z Z.add Z.mul Z.sub (fun x _ => x) Z.max zexp (fun x => x) (fun x => x) (fun _ => 1%Z) (-1000000)%Z tiny).
Example tiny_wf : encoder_wf Z 1 1 tiny.
Proof.
  assert (L : forall l, l = pooler Z tiny -> layer_ok Z l 1 1) by (intros l ->; repeat split; simpl; intros r [<- | []]; reflexivity).
  split; [intros t p s r H; inversion H; reflexivity|]. split; [|apply L; reflexivity]. constructor; [|constructor].
  split; [|split; intros r r' H; simpl in H; destruct r as [|x [|? ?]]; inversion H; reflexivity].
  split; [|repeat split]. split; [discriminate|]. split; [apply L; reflexivity|]. split; [apply L; reflexivity|]. split; apply L; reflexivity.
Qed.
(** Padded at the end, in the middle, not at all. *)
Example tiny_runs : exists e1 o1 e2 o2 p,
  tiny_encode [3; 5; 0; 0] [0; 1; 2; 3] [0; 0; 0; 0] = Ok (e1, [o1], p) /\ tiny_encode [3; 5] [0; 1] [0; 0] = Ok (e2, [o2], p) /\ keep [true; true; false; false] o1 = o2.
Proof. vm_compute. do 5 eexists. split; [reflexivity|]. split; reflexivity. Qed.
Example tiny_quiet : exists embs outs p, tiny_encode [3; 0; 5] [0; 1; 2] [0; 0; 0] = Ok (embs, outs, p)
  /\ quiet Z 0%Z Z.add Z.mul Z.sub (fun x _ => x) Z.max zexp (fun x => x) (fun _ => 1%Z) (-1000000)%Z (token_mask [3; 0; 5]) (layers Z tiny) embs.
Proof.
  do 3 eexists. split; [vm_compute; reflexivity|]. split; [|intros; exact I].
  intros i s S Hi Hs HS. assert (i = 0) by (simpl in Hi; lia). subst i. simpl in Hs, HS.
  destruct s as [|[|[|s]]]; [| |  | lia]; destruct S as [|[|[|S]]]; try lia; cbn [nth token_mask map Nat.eqb negb]; intros E E'; try discriminate; repeat split; vm_compute; reflexivity.
Qed.

(** If the first token is padding, the pooled output depends on the amount of padding: a row of padding attends to everything alike. *)
Theorem C126_first_padding_refuted : exists e t1 p1 s1 t2 p2 s2 r1 r2,
  real t1 t1 = real t2 t2 /\ real t1 p1 = real t2 p2 /\ real t1 s1 = real t2 s2 /\
  encode Z 0%Z Z.add Z.mul Z.sub (fun x _ => x) Z.max zexp (fun x => x) (fun x => x) (fun _ => 1%Z) (-1000000)%Z e t1 p1 s1 = Ok r1 /\
  encode Z 0%Z Z.add Z.mul Z.sub (fun x _ => x) Z.max zexp (fun x => x) (fun x => x) (fun _ => 1%Z) (-1000000)%Z e t2 p2 s2 = Ok r2 /\ snd r1 <> snd r2.
Proof.
  exists tiny, [0; 3], [0; 2], [0; 0], [0; 0; 3], [0; 1; 2], [0; 0; 0]. do 2 eexists.
  split; [reflexivity|]. split; [reflexivity|]. split; [reflexivity|]. split; [vm_compute; reflexivity|]. split; [vm_compute; reflexivity|]. discriminate.
Qed.
Print Assumptions C126_first_padding_refuted.

(** C126. A layer, position by position: attention of all tokens with the outer product of the mask, added to the input and normalised; then the
    feed-forward part, added to its own input and normalised. *)
Theorem C126_layer : forall V zero add mul sub div vmax exp gelu sqrt fmin mask (l : layer V) x y,
  call_layer V zero add mul sub div vmax exp gelu sqrt fmin mask l x = Ok y ->
  exists a, call_mha V unit zero add mul sub div vmax exp sqrt fmin (fun _ _ => []) (fun _ w => Ok w) (attention V l) x x x
              (Mask3 (num_heads V (attention V l)) (length mask) (length mask) (fun _ s S => nth s mask false && nth S mask false)) None None = Ok a /\
    forall i r, nth_error y i = Some r -> exists ai xi n h o, nth_error a i = Some ai /\ nth_error x i = Some xi /\ norm1 V l (zip add ai xi) = Ok n /\
      call_linear V zero add mul (mlp V l) (Vec V n) = Ok (Vec V h) /\ call_linear V zero add mul (output V l) (Vec V (map gelu h)) = Ok (Vec V o) /\
      norm2 V l (zip add o n) = Ok r.
Proof.
  intros V zero add mul sub div vmax exp gelu sqrt fmin mask l x y H. unfold call_layer in H. apply bind_ok in H as (n & H1 & H2). unfold attention_block in H1. apply bind_ok in H1 as (a & Ha & H1).
  exists a. split; [exact Ha|]. intros i r Hr. 
  assert (R : forall A B (f : A -> res B) u v j b, mapM f u = Ok v -> nth_error v j = Some b -> exists c, nth_error u j = Some c /\ f c = Ok b).
  { clear. intros A B f u v j b Hm Hb. assert (L : j < length u) by (rewrite <- (mapM_length _ _ _ Hm); apply nth_error_Some; congruence). destruct (nth_error u j) as [c|] eqn:Ec; [|apply nth_error_None in Ec; lia].
    destruct (mapM_nth _ _ _ Hm j c Ec) as (b' & Hb' & Ef). exists c. split; [reflexivity|congruence]. }
  destruct (R _ _ _ _ _ _ _ H2 Hr) as (ni & Hn & E2). destruct (R _ _ _ _ _ _ _ H1 Hn) as ([ai xi] & Hp & E1). clear R. cbn [fst snd] in E1.
  assert (P : nth_error a i = Some ai /\ nth_error x i = Some xi).
  { clear - Hp. revert i x Hp. induction a as [|a0 a IH]; intros i x Hp; [destruct i; discriminate|]. destruct x as [|x0 x]; [destruct i; discriminate|]. destruct i as [|i]; cbn in *; [injection Hp as <- <-; split; reflexivity|]. apply IH. exact Hp. }
  destruct P as [Pa Px]. unfold ff_block in E2. apply bind_ok in E2 as (h & Eh & E2). apply bind_ok in E2 as (o & Eo & E2). unfold linear_row in Eh, Eo. apply bind_ok in Eh as (vh & Fh & Eh). apply bind_ok in Eo as (vo & Fo & Eo).
  destruct vh as [|vh]; [discriminate|]. injection Eh as <-. destruct vo as [|vo]; [discriminate|]. injection Eo as <-.
  exists ai, xi, ni, vh, vo. repeat split; assumption.
Qed.
Print Assumptions C126_layer.
