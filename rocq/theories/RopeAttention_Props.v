(** C111: attention with rotary embeddings depends on relative positions only; padding at the start that is masked changes nothing. *)
From Coq Require Import Ring Lia QArith Qreduction.
From Verif Require Import Attention_Proofs Attention_Props Rope_Props.
From Verif Require Export RopeAttention_Model.
Local Open Scope nat_scope.
Local Open Scope list_scope.

(** ** Vocabulary *)
(** A vector of size [2 * half] turned by angles with cosines [c] and sines [s]. *)
Definition turned {V} (add mul : V -> V -> V) (opp : V -> V) (half : nat) (c s x : nat -> V) (j : nat) : V :=
  if j <? half then add (mul (x j) (c j)) (mul (opp (x (half + j))) (s j))
  else add (mul (x j) (c (j - half))) (mul (x (j - half)) (s (j - half))).

Section RopeAttention.
  Variables (V Key Th D : Type) (zero one : V) (add mul sub div vmax : V -> V -> V) (opp exp : V -> V) (sqrt : nat -> V) (fmin : V).
  Variable split : Key -> nat -> list Key.
  Variable dropout : option Key -> list (list V) -> res (list (list V)).
  Variables (fcos fsin : nat -> Th -> D -> nat -> nat -> V).
  Variable d_eqb : D -> D -> bool.
  Hypothesis d_eqb_eq : forall a b, d_eqb a b = true <-> a = b.
  Hypothesis Rth : ring_theory zero one add mul sub opp eq.
  Add Ring Vr : Rth.

  Notation mat := (list (list V)).
  Notation bigsum := (bigsum V zero add).
  Notation tab := (tab V).
  Notation tab3 := (tab3 V).
  Notation entry := (entry V zero).
  Notation entry3 := (entry3 V zero).
  Notation rect := (rect V).
  Notation run := (run V zero add mul).
  Notation logit := (logit V zero add mul div sqrt).
  Notation masked := (masked V fmin).
  Notation soft := (soft V zero add sub div vmax exp).
  Notation attend := (attend V zero add mul).
  Notation heads_sum := (heads_sum V zero add mul).
  Notation call := (call_mha V Key zero add mul sub div vmax exp sqrt fmin split dropout).
  Notation turned := (turned add mul opp).
  Notation after := (Rope_Model.after V Th D add mul opp fcos fsin d_eqb).
  Notation rope_call := (Rope_Model.call V Th D add mul opp fcos fsin d_eqb).
  Notation rope_heads := (rope_heads V Th D add mul opp fcos fsin d_eqb).
  Notation process := (process V Th D add mul opp fcos fsin d_eqb).
  Notation action := (action V Th D).
  Notation same_theta := (same_theta V Th D).
  Notation mha_ok := (mha_ok V).
  Notation head_key := (head_key Key split).

  (** ** The embedding on tables *)
  Lemma after_app (h h' : list action) c : after (h ++ h') c = after h' (after h c).
  Proof. revert c. induction h as [|[r cols x|] h IH]; intros c; cbn [app Rope_Model.after]; auto. Qed.
  Lemma rope_tab (hist : list action) size th d r cols n x :
    Rope_Model.make Th D size th d = Ok r -> Z.of_nat cols = size -> same_theta hist cols d th ->
    fst (rope_call r (after hist []) cols (tab n cols x)) = Ok (tab n cols (fun t => turned (cols / 2) (fcos cols th d t) (fsin cols th d t) (x t))).
  Proof.
    intros HM HC HS. pose proof (tab_rect V n cols x) as [L1 L2].
    destruct (C40_history_partial V Th D add mul opp fcos fsin d_eqb d_eqb_eq hist size th d r cols (tab n cols x) HM HC L2 HS) as (y & E & Ly & Hy).
    rewrite E. f_equal. rewrite L1 in Ly.
    assert (R : rect n cols y).
    { split; [exact Ly|]. intros row HI. apply In_nth_error in HI as (t & Ht). assert (Lt : t < n) by (rewrite <- Ly; apply nth_error_Some; congruence).
      destruct (nth_error (tab n cols x) t) as [row'|] eqn:Er; [|apply nth_error_None in Er; rewrite L1 in Er; lia].
      destruct (Hy t row' zero Er) as (out & Eo & Lo & _). congruence. }
    rewrite (rect_tab V zero n cols y R). apply tab_ext. intros s j Hs Hj. unfold Attention_Proofs.entry.
    assert (Er : nth_error (tab n cols x) s = Some (map (x s) (seq 0 cols))).
    { rewrite (nth_error_nth' _ []) by (rewrite L1; exact Hs). f_equal. apply tab_row. exact Hs. }
    destruct (Hy s _ zero Er) as (out & Eo & Lo & Ho). rewrite (nth_error_nth _ _ [] Eo), (Ho j Hj).
    unfold rotated, RopeAttention_Props.turned. rewrite map_length, seq_length.
    assert (HE : cols = 2 * (cols / 2)).
    { unfold Rope_Model.make in HM. destruct (size <? 0)%Z; [discriminate|]. destruct (size mod 2 =? 0)%Z eqn:EM; [|discriminate]. apply halves. apply Z.eqb_eq in EM. congruence. }
    destruct (Nat.ltb_spec j (cols / 2)); rewrite !Attention_Proofs.nth_map_seq by lia; reflexivity.
  Qed.
  Lemma heads_tab (hist : list action) size th d r cols n h x :
    Rope_Model.make Th D size th d = Ok r -> Z.of_nat cols = size -> same_theta hist cols d th -> 0 < h ->
    exists x0, rope_heads r (after hist []) h cols (tab3 n h cols x) =
      (Ok (tab3 n h cols (fun t i => turned (cols / 2) (fcos cols th d t) (fsin cols th d t) (x t i))), after (hist ++ [Call V Th D r cols x0]) []).
  Proof.
    intros HM HC HS Hh. exists (Attention_Model.head V 0 (tab3 n h cols x)). unfold RopeAttention_Model.rope_heads. f_equal; [|rewrite after_app; reflexivity].
    rewrite (mapM_ok_map _ (fun i => tab n cols (fun t => turned (cols / 2) (fcos cols th d t) (fsin cols th d t) (x t i)))).
    - cbn [bind]. f_equal. unfold Attention_Spec.tab3 at 1. rewrite map_length, seq_length. unfold Attention_Spec.tab3. apply map_seq_ext. intros s Hs. apply map_seq_ext. intros i Hi.
      rewrite Attention_Proofs.nth_map_seq by lia. rewrite tab_row by lia. reflexivity.
    - intros i Hi. apply in_seq in Hi. rewrite head_tab3 by lia. eapply rope_tab; eauto.
  Qed.
  Lemma same_theta_more (hist : list action) size th d r cols x0 :
    Rope_Model.make Th D size th d = Ok r -> same_theta hist cols d th -> same_theta (hist ++ [Call V Th D r cols x0]) cols d th.
  Proof.
    intros HM HS r' cols' x' HI. apply in_app_or in HI as [HI|[HI|[]]]; [eapply HS; eauto|]. injection HI as -> _ _. intros _ _ _.
    unfold Rope_Model.make in HM. destruct (size <? 0)%Z; [discriminate|]. destruct (negb _); [discriminate|]. injection HM as <-. reflexivity.
  Qed.
  Lemma process_tab (hist : list action) size th d r cols nq nkv h q k v :
    Rope_Model.make Th D size th d = Ok r -> Z.of_nat cols = size -> same_theta hist cols d th -> 0 < h ->
    process r (after hist []) h cols (tab3 nq h cols q) (tab3 nkv h cols k) v =
      Ok (tab3 nq h cols (fun t i => turned (cols / 2) (fcos cols th d t) (fsin cols th d t) (q t i)),
          tab3 nkv h cols (fun t i => turned (cols / 2) (fcos cols th d t) (fsin cols th d t) (k t i)), v).
  Proof.
    intros HM HC HS Hh. unfold RopeAttention_Model.process. destruct (heads_tab hist size th d r cols nq h q HM HC HS Hh) as (x0 & ->). cbn [bind].
    destruct (heads_tab (hist ++ [Call V Th D r cols x0]) size th d r cols nkv h k HM HC (same_theta_more _ _ _ _ _ _ _ HM HS) Hh) as (x1 & ->).
    reflexivity.
  Qed.
  Lemma has_shape_of n h d f : has_shape V n h d (tab3 n h d f) = true.
  Proof.
    unfold has_shape, Attention_Spec.tab3. rewrite map_length, seq_length, Nat.eqb_refl. cbn [andb]. apply forallb_forall. intros m Hm.
    apply in_map_iff in Hm as (s & <- & _). rewrite map_length, seq_length, Nat.eqb_refl. cbn [andb]. apply forallb_forall. intros row Hr.
    apply in_map_iff in Hr as (i & <- & _). rewrite map_length, seq_length. apply Nat.eqb_refl.
  Qed.
  Lemma entry3_tab3 n h d f s i j : s < n -> i < h -> j < d -> entry3 (tab3 n h d f) s i j = f s i j.
  Proof.
    intros Hs Hi Hj. unfold Attention_Proofs.entry3, Attention_Spec.tab3. rewrite Attention_Proofs.nth_map_seq by exact Hs. rewrite Attention_Proofs.nth_map_seq by exact Hi. apply Attention_Proofs.nth_map_seq. exact Hj.
  Qed.

  (** ** The formula: queries and keys are turned by the angles of their positions. *)
  Section Formula.
    Variables (size : Z) (th : Th) (d : D) (r : rope Th D).
    Hypothesis HM : Rope_Model.make Th D size th d = Ok r.
    Variable m : mha V.
    Hypothesis Hm : mha_ok m.
    Hypothesis Hsize : Z.of_nat (qk_size V m) = size.
    Notation dqk := (qk_size V m).
    Notation h := (num_heads V m).
    Notation turn t := (turned (dqk / 2) (fcos dqk th d t) (fsin dqk th d t)).
    (** The logit of a query [x] at position [s] and a key [y] at position [S]. *)
    Definition rope_logit (s S : nat) (x y : nat -> V) : V := bigsum dqk (fun j => mul (div (turn s x j) (sqrt dqk)) (turn S y j)).
    Notation q query i s j := (run (query_proj V m) (query_size V m) (entry query) s (i * dqk + j)).
    Notation k key_ i s j := (run (key_proj V m) (key_size V m) (entry key_) s (i * dqk + j)).
    Notation v value i s j := (run (value_proj V m) (value_size V m) (entry value) s (i * vo_size V m + j)).
    Notation w query key_ mask i := (soft (length key_) (masked (mask_fn mask i) (fun s S => rope_logit s S (fun j => q query i s j) (fun j => k key_ i S j)))).

    Lemma soft_ext n l l' s S : (forall S, S < n -> l s S = l' s S) -> S < n -> soft n l s S = soft n l' s S.
    Proof.
      intros H HS. unfold Attention_Spec.soft.
      assert (E : bigmax V vmax n (l s) = bigmax V vmax n (l' s)).
      { unfold bigmax. rewrite (H 0) by lia. f_equal. apply map_seq_ext. intros i Hi. apply H. lia. }
      rewrite E, (H S HS). f_equal. apply bigsum_ext. intros i Hi. rewrite (H i Hi). reflexivity.
    Qed.

    Theorem C111_formula : forall hist query key_ value mask key Dr,
      same_theta hist dqk d th ->
      rect (length query) (query_size V m) query -> rect (length key_) (key_size V m) key_ -> rect (length key_) (value_size V m) value ->
      mask_ok mask h (length query) (length key_) ->
      (forall i, i < h -> dropout (head_key key h i) (tab (length query) (length key_) (w query key_ mask i)) = Ok (tab (length query) (length key_) (Dr i))) ->
      call m query key_ value mask key (Some (process r (after hist []) h dqk))
      = Ok (tab (length query) (output_size V m)
              (heads_sum h (vo_size V m) (entry (weight V (output_proj V m))) (bias_fn V zero (output_proj V m))
                 (fun i => attend (length key_) (Dr i) (fun s j => v value i s j)))).
    Proof.
      intros hist query key_ value mask key Dr HS Rq Rk Rv HK HD. assert (Hh : 0 < h) by (destruct Hm as [Hm0 _]; lia).
      destruct (C69_process_heads V Key zero add mul sub div vmax exp sqrt fmin split (fun _ _ _ => []) (fun _ _ _ => []) dropout ltac:(intros; ring) ltac:(intros; ring)
        m query key_ value mask key _ _ _ _ Hm Rq Rk Rv HK (process_tab hist size th d r dqk (length query) (length key_) h
          (fun s i j => q query i s j) (fun s i j => k key_ i s j) (tab3 (length key_) h (vo_size V m) (fun s i j => v value i s j)) HM Hsize HS Hh)) as [_ F].
      specialize (F ltac:(rewrite !has_shape_of; reflexivity) Dr).
      rewrite F.
      - f_equal. apply tab_ext. intros s o Hs Ho. unfold Attention_Spec.heads_sum.
        assert (E : bigsum h (fun i => bigsum (vo_size V m) (fun j => mul (entry (weight V (output_proj V m)) o (i * vo_size V m + j))
                      (attend (length key_) (Dr i) (fun S => entry3 (tab3 (length key_) h (vo_size V m) (fun s i j => v value i s j)) S i) s j)))
                  = bigsum h (fun i => bigsum (vo_size V m) (fun j => mul (entry (weight V (output_proj V m)) o (i * vo_size V m + j))
                      (attend (length key_) (Dr i) (fun s j => v value i s j) s j)))).
        { apply bigsum_ext. intros i Hi. apply bigsum_ext. intros j Hj. f_equal. unfold Attention_Spec.attend. apply bigsum_ext. intros S HS'. rewrite entry3_tab3 by auto. reflexivity. }
        destruct (bias_fn V zero (output_proj V m)) as [b|]; [|exact E]. exact (f_equal (fun y => add y (b o)) E).
      - intros i Hi. rewrite <- (HD i Hi). f_equal. apply tab_ext. intros s S Hs HS'. apply soft_ext; [|exact HS']. intros S' HS2.
        unfold Attention_Spec.masked, Attention_Spec.logit, rope_logit.
        assert (E : bigsum dqk (fun j => mul (div (entry3 (tab3 (length query) h dqk (fun t i => turn t (fun j => q query i t j))) s i j) (sqrt dqk))
                      (entry3 (tab3 (length key_) h dqk (fun t i => turn t (fun j => k key_ i t j))) S' i j))
                  = bigsum dqk (fun j => mul (div (turn s (fun j => q query i s j) j) (sqrt dqk)) (turn S' (fun j => k key_ i S' j) j))).
        { apply bigsum_ext. intros j Hj. rewrite !entry3_tab3 by auto. reflexivity. }
        destruct (mask_fn mask i) as [mm|]; [|exact E]. destruct (mm s S'); [exact E|reflexivity].
    Qed.

    (** ** Relative positions *)
    Hypothesis div_mul : forall a b c, mul (div a c) b = div (mul a b) c.
    Hypothesis div_add : forall a b c, div (add a b) c = add (div a c) (div b c).
    Hypothesis div_0 : forall c, div zero c = zero.
    (** The addition theorems for cos (a - b) and sin (a - b). *)
    Hypothesis angles : exists cd sd : Z -> nat -> V, forall t u i,
      add (mul (fcos dqk th d t i) (fcos dqk th d u i)) (mul (fsin dqk th d t i) (fsin dqk th d u i)) = cd (Z.of_nat t - Z.of_nat u)%Z i /\
      sub (mul (fsin dqk th d t i) (fcos dqk th d u i)) (mul (fcos dqk th d t i) (fsin dqk th d u i)) = sd (Z.of_nat t - Z.of_nat u)%Z i.

    Lemma bigsum_S n f : bigsum (S n) f = add (f 0) (bigsum n (fun i => f (S i))).
    Proof. unfold Attention_Spec.bigsum. cbn [seq map fold_right]. rewrite <- seq_shift, map_map. reflexivity. Qed.
    Lemma bigsum_plus n n' f : bigsum (n + n') f = add (bigsum n f) (bigsum n' (fun i => f (n + i))).
    Proof.
      revert f. induction n as [|n IH]; intros f; [cbn [Nat.add]; change (bigsum 0 f) with zero; rewrite (Radd_0_l Rth); reflexivity|].
      cbn [Nat.add]. rewrite !bigsum_S, IH. ring.
    Qed.
    Lemma bigsum_add n f g : bigsum n (fun i => add (f i) (g i)) = add (bigsum n f) (bigsum n g).
    Proof. revert f g. induction n as [|n IH]; intros f g; [change (zero = add zero zero); ring|]. rewrite !bigsum_S, IH. ring. Qed.
    Lemma bigsum_div n f c : bigsum n (fun i => div (f i) c) = div (bigsum n f) c.
    Proof. revert f. induction n as [|n IH]; intros f; [symmetry; apply div_0|]. rewrite !bigsum_S, IH, div_add. reflexivity. Qed.
    Lemma size_even : dqk = dqk / 2 + dqk / 2.
    Proof.
      unfold Rope_Model.make in HM. destruct (size <? 0)%Z; [discriminate|]. destruct (size mod 2 =? 0)%Z eqn:EM; [|discriminate]. apply Z.eqb_eq in EM.
      pose proof (halves dqk). rewrite Hsize in H. specialize (H EM). lia.
    Qed.

    Theorem C111_relative : forall s S delta x y, rope_logit (delta + s) (delta + S) x y = rope_logit s S x y.
    Proof.
      destruct angles as (cd & sd & HA).
      assert (G : forall s S x y, rope_logit s S x y =
        div (bigsum (dqk / 2) (fun i => add (mul (cd (Z.of_nat s - Z.of_nat S)%Z i) (add (mul (x i) (y i)) (mul (x (dqk / 2 + i)) (y (dqk / 2 + i)))))
               (mul (sd (Z.of_nat s - Z.of_nat S)%Z i) (sub (mul (x i) (y (dqk / 2 + i))) (mul (x (dqk / 2 + i)) (y i)))))) (sqrt dqk)).
      { intros s S x y. unfold rope_logit. rewrite (bigsum_ext V zero add _ _ (fun j => div (mul (turn s x j) (turn S y j)) (sqrt dqk))) by (intros; apply div_mul).
        rewrite bigsum_div. f_equal. rewrite size_even at 1. rewrite bigsum_plus, <- bigsum_add. apply bigsum_ext. intros i Hi.
        destruct (HA s S i) as [<- <-]. unfold RopeAttention_Props.turned.
        replace (i <? dqk / 2) with true by (symmetry; apply Nat.ltb_lt; exact Hi). replace (dqk / 2 + i <? dqk / 2) with false by (symmetry; apply Nat.ltb_ge; lia).
        replace (dqk / 2 + i - dqk / 2) with i by lia. ring. }
      intros s S delta x y. rewrite !G. replace (Z.of_nat (delta + s) - Z.of_nat (delta + S))%Z with (Z.of_nat s - Z.of_nat S)%Z by lia. reflexivity.
    Qed.

    (** ** Padding at the start *)
    Hypothesis fmin_idem : vmax fmin fmin = fmin.
    Hypothesis no_dropout : forall key w, dropout key w = Ok w.
    Lemma soft_padded delta n l l' s s' : 0 < n ->
      (forall S, S < delta -> l' s' S = fmin) -> (forall S, S < n -> l' s' (delta + S) = l s S) ->
      vmax fmin (l s 0) = l s 0 -> exp (sub fmin (bigmax V vmax n (l s))) = zero ->
      (forall S, S < delta -> soft (delta + n) l' s' S = zero) /\ (forall S, S < n -> soft (delta + n) l' s' (delta + S) = soft n l s S).
    Proof.
      intros Hn H1 H2 HF0 H0.
      assert (EM : bigmax V vmax (delta + n) (l' s') = bigmax V vmax n (l s)).
      { assert (F : forall dl a, (forall S, S < dl -> l' s' (a + S) = fmin) -> fold_left vmax (map (l' s') (seq a dl)) fmin = fmin).
        { induction dl as [|dl IH]; intros a HF; [reflexivity|]. cbn [seq map fold_left]. rewrite <- (Nat.add_0_r a) at 2. rewrite HF by lia. rewrite fmin_idem. apply IH.
          intros S HS. rewrite Nat.add_succ_comm. apply HF. lia. }
        assert (E0 : bigmax V vmax n (l s) = fold_left vmax (map (l' s') (seq (delta + 1) (n - 1))) (l' s' delta)).
        { unfold bigmax. rewrite <- (Nat.add_0_r delta) at 2. rewrite H2 by exact Hn. f_equal.
          assert (ES : forall a c, map (l' s') (seq (delta + a) c) = map (fun S => l' s' (delta + S)) (seq a c)).
          { intros a c. revert a. induction c as [|c IH]; intros a; [reflexivity|]. cbn [seq map]. rewrite <- Nat.add_succ_r, IH. reflexivity. }
          rewrite ES. apply map_seq_ext. intros i Hi. symmetry. apply H2. lia. }
        rewrite E0. destruct delta as [|dl]; [unfold bigmax; reflexivity|]. unfold bigmax. rewrite (H1 0) by lia.
        replace (Datatypes.S dl + n - 1) with (dl + (1 + (n - 1))) by lia. rewrite seq_app, map_app, fold_left_app, F by (intros; apply H1; lia).
        cbn [Nat.add seq map fold_left]. pose proof (H2 0 Hn) as H20. rewrite Nat.add_0_r in H20. cbn [Nat.add] in H20. rewrite H20, HF0. replace (Datatypes.S (dl + 1)) with (Datatypes.S (Datatypes.S dl)) by lia. reflexivity. }
      assert (EB : bigsum (delta + n) (fun S => exp (sub (l' s' S) (bigmax V vmax n (l s)))) = bigsum n (fun S => exp (sub (l s S) (bigmax V vmax n (l s))))).
      { rewrite bigsum_plus. assert (Z0 : bigsum delta (fun S => exp (sub (l' s' S) (bigmax V vmax n (l s)))) = zero).
        { clear - H1 H0 Rth. induction delta as [|dl IH]; [reflexivity|]. replace (Datatypes.S dl) with (dl + 1) by lia. rewrite bigsum_plus, IH by (intros; apply H1; lia).
          rewrite bigsum_S. rewrite H1 by lia. rewrite H0. change (bigsum 0 (fun i => exp (sub (l' s' (dl + Datatypes.S i)) (bigmax V vmax n (l s))))) with zero. ring. }
        rewrite Z0, (Radd_0_l Rth). apply bigsum_ext. intros S HS. rewrite H2 by exact HS. reflexivity. }
      unfold Attention_Spec.soft. rewrite EM, EB. split.
      - intros S HS. rewrite H1, H0 by exact HS. apply div_0.
      - intros S HS. rewrite H2 by exact HS. reflexivity.
    Qed.
    Lemma attend_padded delta n ww ww' vv vv' s s' j :
      (forall S, S < delta -> ww' s' S = zero) -> (forall S, S < n -> ww' s' (delta + S) = ww s S) -> (forall S, S < n -> vv' (delta + S) j = vv S j) ->
      attend (delta + n) ww' vv' s' j = attend n ww vv s j.
    Proof.
      intros H1 H2 H3. unfold Attention_Spec.attend. rewrite bigsum_plus.
      assert (Z0 : bigsum delta (fun S => mul (ww' s' S) (vv' S j)) = zero).
      { clear - H1 Rth. induction delta as [|dl IH]; [reflexivity|]. replace (Datatypes.S dl) with (dl + 1) by lia. rewrite bigsum_plus, IH by (intros; apply H1; lia).
        rewrite bigsum_S, H1 by lia. change (bigsum 0 _) with zero. ring. }
      rewrite Z0, (Radd_0_l Rth). apply bigsum_ext. intros S HS. rewrite H2, H3 by exact HS. reflexivity.
    Qed.

    (** Rows put before queries, keys and values, and masked, change nothing in the other rows. *)
    Theorem C111_padding : forall hist hist' query key_ value pq pk pv mask mask' key key',
      same_theta hist dqk d th -> same_theta hist' dqk d th ->
      rect (length query) (query_size V m) query -> rect (length key_) (key_size V m) key_ -> rect (length key_) (value_size V m) value ->
      rect (length pq) (query_size V m) pq -> rect (length pq) (key_size V m) pk -> rect (length pq) (value_size V m) pv ->
      key_ <> [] -> mask_ok mask h (length query) (length key_) -> mask_ok mask' h (length pq + length query) (length pq + length key_) ->
      (forall i s S, i < h -> s < length query -> S < length pq -> visible mask' i (length pq + s) S = false) ->
      (forall i s S, i < h -> s < length query -> S < length key_ -> visible mask' i (length pq + s) (length pq + S) = visible mask i s S) ->
      (forall i s, i < h -> s < length query ->
         vmax fmin (masked (mask_fn mask i) (fun s S => rope_logit s S (fun j => q query i s j) (fun j => k key_ i S j)) s 0)
           = masked (mask_fn mask i) (fun s S => rope_logit s S (fun j => q query i s j) (fun j => k key_ i S j)) s 0 /\
         exp (sub fmin (bigmax V vmax (length key_) (masked (mask_fn mask i) (fun s S => rope_logit s S (fun j => q query i s j) (fun j => k key_ i S j)) s))) = zero) ->
      exists out out', call m query key_ value mask key (Some (process r (after hist []) h dqk)) = Ok out /\
        call m (pq ++ query) (pk ++ key_) (pv ++ value) mask' key' (Some (process r (after hist' []) h dqk)) = Ok out' /\
        skipn (length pq) out' = out.
    Proof.
      intros hist hist' query key_ value pq pk pv mask mask' key key' HS HS' Rq Rk Rv Pq Pk Pv Hne HK HK' Hpad Hvis Hexp.
      assert (Lk : length (pk ++ key_) = length pq + length key_) by (rewrite app_length; destruct Pk as [-> _]; reflexivity).
      assert (Lq : length (pq ++ query) = length pq + length query) by apply app_length.
      assert (RA : forall n n' c a b, rect n c a -> rect n' c b -> rect (n + n') c (a ++ b)).
      { intros n n' c a b [A1 A2] [B1 B2]. split; [rewrite app_length; congruence|]. intros row HI. apply in_app_or in HI as [HI|HI]; auto. }
      assert (Hn : 0 < length key_) by (destruct key_; [congruence|cbn; lia]).
      do 2 eexists. split; [apply (C111_formula hist query key_ value mask key (fun i => w query key_ mask i)); auto|].
      split; [apply (C111_formula hist' (pq ++ query) (pk ++ key_) (pv ++ value) mask' key' (fun i => w (pq ++ query) (pk ++ key_) mask' i)); rewrite ?Lq, ?Lk; auto|].
      rewrite Lq, Lk. set (delta := length pq) in *.
      assert (EE : forall (a b : mat) s j, length a = delta -> entry (a ++ b) (delta + s) j = entry b s j).
      { intros a b s j L. unfold Attention_Proofs.entry. rewrite app_nth2 by lia. rewrite L. replace (delta + s - delta) with s by lia. reflexivity. }
      assert (ER : forall l n (a b : mat) s c, length a = delta -> run l n (entry (a ++ b)) (delta + s) c = run l n (entry b) s c).
      { intros l n a b s c L. unfold Attention_Proofs.run, affine.
        assert (E : bigsum n (fun j => mul (entry (weight V l) c j) (entry (a ++ b) (delta + s) j)) = bigsum n (fun j => mul (entry (weight V l) c j) (entry b s j))).
        { apply bigsum_ext. intros j Hj. rewrite EE by exact L. reflexivity. }
        rewrite E. reflexivity. }
      unfold Attention_Spec.tab. rewrite seq_app, map_app, skipn_app, map_length, seq_length, Nat.sub_diag. rewrite skipn_all2 by (rewrite map_length, seq_length; lia).
      cbn [app skipn Nat.add].
      assert (ES : forall A (g : nat -> A) a c, map g (seq (a + 0) c) = map (fun S => g (a + S)) (seq 0 c)).
      { intros A g a c. generalize 0 as z. induction c as [|c IH]; intros z; [reflexivity|]. cbn [seq map]. rewrite <- Nat.add_succ_r, IH. reflexivity. }
      rewrite <- (Nat.add_0_r delta) at 1. rewrite ES. apply map_seq_ext. intros s Hs. apply map_seq_ext. intros o Ho.
      assert (EA : forall i j, i < h -> attend (delta + length key_) (soft (delta + length key_) (masked (mask_fn mask' i) (fun s S => rope_logit s S (fun j => q (pq ++ query) i s j) (fun j => k (pk ++ key_) i S j))))
                     (fun s j => v (pv ++ value) i s j) (delta + s) j = attend (length key_) (w query key_ mask i) (fun s j => v value i s j) s j).
      { intros i j Hi.
        destruct (soft_padded delta (length key_) (masked (mask_fn mask i) (fun s S => rope_logit s S (fun j => q query i s j) (fun j => k key_ i S j)))
          (masked (mask_fn mask' i) (fun s S => rope_logit s S (fun j => q (pq ++ query) i s j) (fun j => k (pk ++ key_) i S j))) s (delta + s) Hn) as [W1 W2].
        - intros S HS2. specialize (Hpad i s S Hi ltac:(lia) HS2). unfold visible in Hpad. unfold Attention_Spec.masked. destruct (mask_fn mask' i) as [mm|]; [|discriminate]. rewrite Hpad. reflexivity.
        - intros S HS2. specialize (Hvis i s S Hi ltac:(lia) HS2). unfold visible in Hvis.
          assert (EL : rope_logit (delta + s) (delta + S) (fun j => q (pq ++ query) i (delta + s) j) (fun j => k (pk ++ key_) i (delta + S) j) = rope_logit s S (fun j => q query i s j) (fun j => k key_ i S j)).
          { rewrite C111_relative. unfold rope_logit. apply bigsum_ext. intros j' Hj'. unfold RopeAttention_Props.turned. rewrite !ER by first [exact (proj1 Pk)|reflexivity]. reflexivity. }
          unfold Attention_Spec.masked. rewrite EL. destruct (mask_fn mask i) as [mm|], (mask_fn mask' i) as [mm'|]; rewrite ?Hvis; try (rewrite <- Hvis); reflexivity.
        - apply Hexp; [exact Hi|lia].
        - apply Hexp; [exact Hi|lia].
        - apply attend_padded; [exact W1|exact W2|]. intros S HS2. apply ER. apply Pv. }
      unfold Attention_Spec.heads_sum.
      assert (EF : forall b : option (nat -> V), forall y y' : V, y = y' -> match b with Some b => add y (b o) | None => y end = match b with Some b => add y' (b o) | None => y' end)
        by (intros [b|] y y' ->; reflexivity).
      apply EF. apply bigsum_ext. intros i Hi. apply bigsum_ext. intros j Hj. f_equal. apply EA. exact Hi.
    Qed.
  End Formula.
End RopeAttention.

(** ** Example: exact rationals and quarter turns; one head of size two *)
From Coq Require Import Qcanon.
Local Open Scope nat_scope.
Section Example_.
  Definition c_of (x : Z) : Qc := Q2Qc (inject_Z x).
  Definition c_exp (x : Qc) : Qc := if Qle_bool x (-100 # 1) then 0%Qc else (1 + x + x * x)%Qc.
  Definition c_max (x y : Qc) : Qc := if Qle_bool x y then y else x.
  Definition c_lin (i o : nat) (w : list (list Z)) : Mlp_Model.linear Qc :=
    {| weight := map (map c_of) w; bias := None; in_features := Size i; out_features := Size o; use_bias := false |}.
  Definition c_mha : mha Qc :=
    {| query_proj := c_lin 1 2 [[1]; [2]]%Z; key_proj := c_lin 1 2 [[1]; [-1]]%Z; value_proj := c_lin 1 1 [[3]]%Z; output_proj := c_lin 1 1 [[1]]%Z;
       num_heads := 1; query_size := 1; key_size := 1; value_size := 1; output_size := 1; qk_size := 2; vo_size := 1 |}.
  Notation ccos := (fun (_ : nat) (_ _ : unit) (t _ : nat) => c_of (qcos (Z.of_nat t))).
  Notation csin := (fun (_ : nat) (_ _ : unit) (t _ : nat) => c_of (qsin (Z.of_nat t))).
  Definition c_rope : rope unit unit := {| r_size := 2; r_theta := tt; r_dtype := tt |}.
  Definition c_process := process Qc unit unit Qcplus Qcmult Qcopp ccos csin (fun _ _ => true) c_rope [] 1 2.
  Definition c_call pr (q k v : list Z) mask :=
    call_mha Qc nat 0%Qc Qcplus Qcmult Qcminus Qcdiv c_max c_exp (fun _ => 1%Qc) (c_of (-1000000)) (fun k n => repeat k n) (fun _ w => Ok w) c_mha
      (map (fun x => [c_of x]) q) (map (fun x => [c_of x]) k) (map (fun x => [c_of x]) v) mask None pr.
  Definition values (r : res (list (list Qc))) : res (list (list Q)) := rmap (map (map this)) r.
  Lemma c_of_add x y : (c_of x + c_of y)%Qc = c_of (x + y).
  Proof. apply Qc_is_canon. unfold c_of, Qcplus, Q2Qc, this. rewrite !Qred_correct. rewrite inject_Z_plus. reflexivity. Qed.
  Lemma c_of_mul x y : (c_of x * c_of y)%Qc = c_of (x * y).
  Proof. apply Qc_is_canon. unfold c_of, Qcmult, Q2Qc, this. rewrite !Qred_correct. rewrite inject_Z_mult. reflexivity. Qed.
  Lemma c_of_sub x y : (c_of x - c_of y)%Qc = c_of (x - y).
  Proof. apply Qc_is_canon. unfold c_of, Qcminus, Qcplus, Qcopp, Q2Qc, this. rewrite !Qred_correct. unfold Z.sub. rewrite inject_Z_plus, inject_Z_opp. reflexivity. Qed.
  (** Two queries and keys with a causal mask; one row put before them and masked. The hypotheses of [C111_padding] hold ... *)
  Definition causal (s S : nat) : bool := S <=? s.
  Definition causal' (s S : nat) : bool := (S <=? s) && (1 <=? S).
  Example C111_ex : exists out out',
    c_call (Some c_process) [1; 2]%Z [1; 3]%Z [7; 9]%Z (Mask2 2 2 causal) = Ok out /\
    c_call (Some c_process) [55; 1; 2]%Z [66; 1; 3]%Z [77; 7; 9]%Z (Mask2 3 3 causal') = Ok out' /\ skipn 1 out' = out.
  Proof.
    refine (C111_padding Qc nat unit unit 0%Qc 1%Qc Qcplus Qcmult Qcminus Qcdiv c_max Qcopp c_exp (fun _ => 1%Qc) (c_of (-1000000)) (fun k n => repeat k n) (fun _ w => Ok w)
      ccos csin (fun _ _ => true) _ Qcrt 2 tt tt c_rope eq_refl c_mha _ eq_refl _ _ _ _ _ _ [] [] (map (fun x => [c_of x]) [1; 2]%Z) (map (fun x => [c_of x]) [1; 3]%Z) (map (fun x => [c_of x]) [7; 9]%Z)
      [[c_of 55]] [[c_of 66]] [[c_of 77]] (Mask2 2 2 causal) (Mask2 3 3 causal') None None _ _ _ _ _ _ _ _ _ _ _ _ _ _).
    - intros [] []. tauto.
    - repeat split; try discriminate; cbn; intros r H; repeat (destruct H as [<-|H]; [reflexivity|]); contradiction.
    - intros a b c. unfold Qcdiv. ring.
    - intros a b c. unfold Qcdiv. ring.
    - intros c. unfold Qcdiv. ring.
    - destruct C64_ex as [(cd & sd & H) _]. exists (fun z i => c_of (cd z i)), (fun z i => c_of (sd z i)). intros t u i. destruct (H t u i) as [<- <-].
      rewrite !c_of_mul, c_of_add, c_of_sub. split; reflexivity.
    - apply Qc_is_canon. vm_compute. reflexivity.
    - reflexivity.
    - intros ? ? ? [].
    - intros ? ? ? [].
    - split; [reflexivity|]. cbn. intros row H; repeat (destruct H as [<-|H]; [reflexivity|]); contradiction.
    - split; [reflexivity|]. cbn. intros row H; repeat (destruct H as [<-|H]; [reflexivity|]); contradiction.
    - split; [reflexivity|]. cbn. intros row H; repeat (destruct H as [<-|H]; [reflexivity|]); contradiction.
    - split; [reflexivity|]. cbn. intros row H; repeat (destruct H as [<-|H]; [reflexivity|]); contradiction.
    - split; [reflexivity|]. cbn. intros row H; repeat (destruct H as [<-|H]; [reflexivity|]); contradiction.
    - split; [reflexivity|]. cbn. intros row H; repeat (destruct H as [<-|H]; [reflexivity|]); contradiction.
    - discriminate.
    - cbn. auto.
    - cbn. auto.
    - cbn [length map Nat.add]. intros i s S Hi Hs HS. assert (S = 0) as -> by lia. unfold visible. cbn. destruct (s <=? s); reflexivity.
    - cbn [length map Nat.add]. intros i s S Hi Hs HS. unfold visible. cbn. unfold causal, causal'. cbn. rewrite andb_true_r. reflexivity.
    - cbn [length map]. intros i s Hi Hs. cbn in Hi. assert (i = 0) as -> by lia. assert (s = 0 \/ s = 1) as [-> | ->] by lia; split; apply Qc_is_canon; vm_compute; reflexivity.
  Qed.
  (** ... and the results, with and without the embedding. *)
  Example C111_values :
    values (c_call (Some c_process) [1; 2]%Z [1; 3]%Z [7; 9]%Z (Mask2 2 2 causal)) = Ok [[21 # 1]; [24 # 1]] /\
    values (c_call None [1; 2]%Z [1; 3]%Z [7; 9]%Z (Mask2 2 2 causal)) = Ok [[21 # 1]; [186 # 7]].
  Proof. split; vm_compute; reflexivity. Qed.
End Example_.
Print Assumptions C111_formula.
Print Assumptions C111_relative.
Print Assumptions C111_padding.
