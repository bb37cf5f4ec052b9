(** C69: multi-head attention is the documented sum over heads; masked positions do not matter.

    [rect n m a]: [a] is a matrix with [n] rows and [m] columns, [entry a s j] its entries. [run l i x] is the affine map
    of the layer [l]. The specification is in [Attention_Spec]. *)
From Verif Require Import Attention_Proofs.
From Coq Require Import Lia Permutation QArith.
Local Open Scope nat_scope.
Local Open Scope list_scope.

(** The shapes of masks that are allowed, and their entries for head [i]. *)
Definition mask_ok (mask : mask_t) (h nq nkv : nat) : Prop :=
  match mask with
  | NoMask => True
  | Mask2 r c _ => r = nq /\ c = nkv
  | Mask3 h' r c _ => h' = h /\ r = nq /\ c = nkv
  | MaskOther => False
  end.
Definition mask_fn (mask : mask_t) (i : nat) : option (nat -> nat -> bool) :=
  match mask with NoMask => None | Mask2 _ _ m => Some m | Mask3 _ _ _ m => Some (m i) | MaskOther => None end.
(** Is position [S] visible to query [s] in head [i]? *)
Definition visible (mask : mask_t) (i s S : nat) : bool :=
  match mask_fn mask i with Some m => m s S | None => true end.

Section Props.
  Variables (V Key : Type) (zero : V) (add mul sub div vmax : V -> V -> V) (exp : V -> V) (sqrt : nat -> V) (fmin : V).
  Variable split : Key -> nat -> list Key.
  Variable init_w : Key -> nat -> nat -> list (list V).
  Variable init_b : Key -> nat -> nat -> list V.
  Variable dropout : option Key -> list (list V) -> res (list (list V)).
  Notation mat := (list (list V)).
  Notation bigsum := (bigsum V zero add).
  Notation tab := (tab V).
  Notation tab3 := (tab3 V).
  Notation entry := (entry V zero).
  Notation entry3 := (entry3 V zero).
  Notation rect := (rect V).
  Notation run := (run V zero add mul).
  Notation logit := (logit V zero add mul div sqrt).
  Notation masked := (masked V fmin).
  Notation soft := (soft V zero add sub div vmax exp).
  Notation attend := (attend V zero add mul).
  Notation heads_sum := (heads_sum V zero add mul).
  Notation call := (call_mha V Key zero add mul sub div vmax exp sqrt fmin split dropout).
  Notation make := (make_mha V Key split init_w init_b).

  (** A module with consistent sizes (every one made by the constructor: [C69_made]). *)
  Definition mha_ok (m : mha V) : Prop :=
    num_heads V m <> 0 /\
    layer_ok V (query_proj V m) (query_size V m) (num_heads V m * qk_size V m) /\
    layer_ok V (key_proj V m) (key_size V m) (num_heads V m * qk_size V m) /\
    layer_ok V (value_proj V m) (value_size V m) (num_heads V m * vo_size V m) /\
    layer_ok V (output_proj V m) (num_heads V m * vo_size V m) (output_size V m).

  Theorem C69_made : forall h q k v o qk vo bq bk bv bo key m,
    (forall key n i, rect n i (init_w key n i)) -> (forall key n i, length (init_b key n i) = n) ->
    make h q k v o qk vo bq bk bv bo key = Ok m ->
    h <> 0 ->
    mha_ok m /\ num_heads V m = h /\ query_size V m = q /\
    key_size V m = match k with Some k => k | None => q end /\
    value_size V m = match v with Some v => v | None => q end /\
    output_size V m = match o with Some o => o | None => q end /\
    qk_size V m = match qk with Some n => n | None => q / h end /\
    vo_size V m = match vo with Some n => n | None => q / h end /\
    (bias V (query_proj V m) <> None <-> bq = true) /\ (bias V (key_proj V m) <> None <-> bk = true) /\
    (bias V (value_proj V m) <> None <-> bv = true) /\ (bias V (output_proj V m) <> None <-> bo = true).
  Proof.
    intros h q k v o qk vo bq bk bv bo key m Hw Hb H Hh. unfold make_mha in H.
    destruct (split key 4) as [|k1 [|k2 [|k3 [|k4 [|? ?]]]]]; try discriminate H.
    destruct (Nat.eqb_spec h 0) as [E|_]; [contradiction|]. cbn [andb] in H.
    assert (L : forall i o b ky l, make_linear V Key split init_w init_b (Size i) (Size o) b ky = Ok l ->
                layer_ok V l i o /\ (bias V l <> None <-> b = true)).
    { intros i o' b ky l Hl. unfold make_linear in Hl.
      destruct (split ky 2) as [|w1 [|w2 [|? ?]]]; try discriminate Hl. injection Hl as <-.
      repeat split; cbn; try apply Hw; destruct b; try (apply Hb); try reflexivity; try (intros; congruence);
        try exact I. }
    apply bind_ok in H as (pq & Hq & H). apply bind_ok in H as (pk & Hk & H).
    apply bind_ok in H as (pv & Hv & H). apply bind_ok in H as (po & Ho & H).
    injection H as <-. apply L in Hq, Hk, Hv, Ho. unfold default in *.
    destruct Hq as [Hq1 Hq2], Hk as [Hk1 Hk2], Hv as [Hv1 Hv2], Ho as [Ho1 Ho2].
    unfold mha_ok. cbn [query_proj key_proj value_proj output_proj num_heads query_size key_size value_size output_size qk_size vo_size].
    repeat match goal with |- _ /\ _ => split end; first [assumption|reflexivity|apply Hq2|apply Hk2|apply Hv2|apply Ho2].
  Qed.

  (** Without heads no default of the sizes per head can be computed. *)
  Theorem C69_no_heads : forall q k v o qk vo bq bk bv bo key, length (split key 4) = 4 -> (forall key, length (split key 2) = 2) ->
    (qk = None \/ vo = None -> make 0 q k v o qk vo bq bk bv bo key = Err ZeroDivisionError) /\
    (qk <> None -> vo <> None -> exists m, make 0 q k v o qk vo bq bk bv bo key = Ok m).
  Proof.
    intros q k v o qk vo bq bk bv bo key H4 H2. unfold make_mha.
    destruct (split key 4) as [|k1 [|k2 [|k3 [|k4 [|? ?]]]]]; try discriminate H4. split.
    - intros [-> | ->]; [reflexivity|]. destruct qk; reflexivity.
    - destruct qk; [|congruence]. destruct vo; [|congruence]. intros _ _. cbn [Nat.eqb andb orb].
      assert (L : forall i o b ky, exists l, make_linear V Key split init_w init_b (Size i) (Size o) b ky = Ok l).
      { intros i o' b ky. unfold make_linear. specialize (H2 ky). destruct (split ky 2) as [|w1 [|w2 [|? ?]]]; try discriminate H2. eexists. reflexivity. }
      edestruct L as [l1 E1]. rewrite E1. cbn [bind]. edestruct L as [l2 E2]. rewrite E2. cbn [bind]. edestruct L as [l3 E3]. rewrite E3. cbn [bind].
      edestruct L as [l4 E4]. rewrite E4. cbn [bind]. eexists. reflexivity.
  Qed.

  (** Every projection is a fresh layer of its own key: the query's of the first, the key's of the second, the value's of the third,
      the output's of the fourth. *)
  Definition fresh (key : Key) (n_in n_out : nat) (b : bool) (l : Mlp_Model.linear V) : Prop :=
    exists kw kb, split key 2 = [kw; kb] /\ weight V l = init_w kw n_out n_in /\
                  bias V l = if b then Some (init_b kb n_out n_in) else None.
  Theorem C69_keys : forall h q k v o qk vo bq bk bv bo key m,
    make h q k v o qk vo bq bk bv bo key = Ok m ->
    exists k1 k2 k3 k4, split key 4 = [k1; k2; k3; k4] /\
      fresh k1 (query_size V m) (num_heads V m * qk_size V m) bq (query_proj V m) /\
      fresh k2 (key_size V m) (num_heads V m * qk_size V m) bk (key_proj V m) /\
      fresh k3 (value_size V m) (num_heads V m * vo_size V m) bv (value_proj V m) /\
      fresh k4 (num_heads V m * vo_size V m) (output_size V m) bo (output_proj V m).
  Proof.
    intros h q k v o qk vo bq bk bv bo key m H. unfold make_mha in H.
    destruct (split key 4) as [|k1 [|k2 [|k3 [|k4 [|? ?]]]]]; try discriminate H.
    match type of H with (if ?c then _ else _) = _ => destruct c end; [discriminate H|].
    assert (L : forall i o b ky l, make_linear V Key split init_w init_b (Size i) (Size o) b ky = Ok l -> fresh ky i o b l).
    { intros i o' b ky l Hl. unfold make_linear in Hl. unfold fresh.
      destruct (split ky 2) as [|w1 [|w2 [|? ?]]]; try discriminate Hl. injection Hl as <-.
      exists w1, w2. cbn. repeat split; destruct b; reflexivity. }
    apply bind_ok in H as (pq & Hq & H). apply bind_ok in H as (pk & Hk & H).
    apply bind_ok in H as (pv & Hv & H). apply bind_ok in H as (po & Ho & H).
    injection H as <-. apply L in Hq, Hk, Hv, Ho. exists k1, k2, k3, k4. cbn. auto.
  Qed.

  (** The key given to the dropout of head [i]. *)
  Definition head_key (key : option Key) (h i : nat) : option Key :=
    match key with None => None | Some k => nth_error (split k h) i end.
  Lemma head_key_ok key h i :
    nth i (match key with None => repeat None h | Some ky => map Some (split ky h) end) None = head_key key h i.
  Proof.
    destruct key as [k|]; cbn.
    - generalize (split k h). intros l. revert i. induction l as [|x l IH]; intros [|i]; cbn; auto.
    - revert i. induction h as [|h IH]; intros [|i]; cbn; auto.
  Qed.

  Section Formula.
    Hypothesis add_assoc : forall x y z, add x (add y z) = add (add x y) z.
    Hypothesis add_0_l : forall x, add zero x = x.

    (** What happens after the heads are known. *)
    Lemma attend_heads m nq nkv q k v mask key D :
      mha_ok m -> mask_ok mask (num_heads V m) nq nkv ->
      let h := num_heads V m in
      let w i := soft nkv (masked (mask_fn mask i) (logit (qk_size V m) (fun s => q s i) (fun S => k S i))) in
      (forall i, i < h -> dropout (head_key key h i) (tab nq nkv (w i)) = Ok (tab nq nkv (D i))) ->
      (attns <- mapM (fun i => dot_product_attention V Key zero add mul sub div vmax exp sqrt fmin dropout (vo_size V m)
                  (head V i (tab3 nq h (qk_size V m) q)) (head V i (tab3 nkv h (qk_size V m) k))
                  (head V i (tab3 nkv h (vo_size V m) v)) (mask_of mask i)
                  (nth i (match key with None => repeat None h | Some ky => map Some (split ky h) end) None)) (seq 0 h) ;;
       through V zero add mul (output_proj V m) (map (fun s => concat (map (fun a => nth s a []) attns)) (seq 0 nq)))
      = Ok (tab nq (output_size V m)
              (heads_sum h (vo_size V m) (entry (weight V (output_proj V m))) (bias_fn V zero (output_proj V m))
                 (fun i => attend nkv (D i) (fun S => v S i)))).
    Proof.
      intros (Hh & _ & _ & _ & Ho) Hm h w HD.
      rewrite (mapM_ok_map _ (fun i => tab nq (vo_size V m) (attend nkv (D i) (fun S => v S i)))).
      - cbn [bind]. apply output_tab; [exact add_assoc|exact add_0_l|exact Ho].
      - intros i Hi. apply in_seq in Hi. unfold dot_product_attention.
        rewrite !head_tab3 by lia. rewrite head_key_ok.
        rewrite weights_tab.
        + cbn [bind].
          assert (E : soft nkv (masked (entries (mask_of mask i))
                       (logit (qk_size V m) (fun s => q s i) (fun s => k s i))) = w i).
          { unfold w. destruct mask; try reflexivity. contradiction. }
          rewrite E, HD by lia. cbn [bind]. rewrite weighted_tab. reflexivity.
        + destruct mask; cbn in *; tauto.
    Qed.

    Lemma call_unfold m query key_ value mask key pr :
      mha_ok m -> rect (length query) (query_size V m) query -> rect (length key_) (key_size V m) key_ ->
      rect (length key_) (value_size V m) value -> mask_ok mask (num_heads V m) (length query) (length key_) ->
      let h := num_heads V m in
      let q s i j := run (query_proj V m) (query_size V m) (entry query) s (i * qk_size V m + j) in
      let k s i j := run (key_proj V m) (key_size V m) (entry key_) s (i * qk_size V m + j) in
      let v s i j := run (value_proj V m) (value_size V m) (entry value) s (i * vo_size V m + j) in
      let Q := tab3 (length query) h (qk_size V m) q in
      let K := tab3 (length key_) h (qk_size V m) k in
      let U := tab3 (length key_) h (vo_size V m) v in
      call m query key_ value mask key pr =
      ('(q, k, v) <- match pr with
                     | None => Ok (Q, K, U)
                     | Some f =>
                         '(q', k', v') <- f Q K U ;;
                         if has_shape V (length query) h (qk_size V m) q' && has_shape V (length key_) h (qk_size V m) k'
                            && has_shape V (length key_) h (vo_size V m) v'
                         then Ok (q', k', v') else Err ValueError
                     end ;;
       attns <- mapM (fun i => dot_product_attention V Key zero add mul sub div vmax exp sqrt fmin dropout (vo_size V m)
                  (head V i q) (head V i k) (head V i v) (mask_of mask i)
                  (nth i (match key with None => repeat None h | Some ky => map Some (split ky h) end) None)) (seq 0 h) ;;
       through V zero add mul (output_proj V m) (map (fun s => concat (map (fun a => nth s a []) attns)) (seq 0 (length query)))).
    Proof.
      intros (Hh & Lq & Lk & Lv & Lo) Rq Rk Rv Hm h q k v Q K U. unfold call_mha.
      assert (Ev : length value = length key_) by apply Rv. rewrite Ev, Nat.eqb_refl. cbn [negb].
      assert (Eq : project V zero add mul (num_heads V m) (query_proj V m) query = Ok Q).
      { rewrite (rect_tab _ zero _ _ _ Rq) at 1. apply project_tab; assumption. }
      assert (Ek : project V zero add mul (num_heads V m) (key_proj V m) key_ = Ok K).
      { rewrite (rect_tab _ zero _ _ _ Rk) at 1. apply project_tab; assumption. }
      assert (Eu : project V zero add mul (num_heads V m) (value_proj V m) value = Ok U).
      { rewrite (rect_tab _ zero _ _ _ Rv) at 1. apply project_tab; assumption. }
      rewrite Eq, Ek, Eu. cbn [bind]. fold h.
      assert (Em : (match mask with
                    | Mask3 h' _ _ _ => if Nat.eqb h' h then Ok tt else Err ValueError
                    | MaskOther => Err ValueError
                    | _ => Ok tt
                    end) = Ok tt).
      { destruct mask; cbn in Hm; try reflexivity; try contradiction.
        destruct Hm as (-> & _). fold h. rewrite Nat.eqb_refl. reflexivity. }
      rewrite Em. reflexivity.
    Qed.

    (** The documented formula, for any dropout [D] of the weights. *)
    Theorem C69_formula : forall m query key_ value mask key D,
      mha_ok m -> rect (length query) (query_size V m) query -> rect (length key_) (key_size V m) key_ ->
      rect (length key_) (value_size V m) value -> mask_ok mask (num_heads V m) (length query) (length key_) ->
      let h := num_heads V m in let nq := length query in let nkv := length key_ in
      let q i s j := run (query_proj V m) (query_size V m) (entry query) s (i * qk_size V m + j) in
      let k i s j := run (key_proj V m) (key_size V m) (entry key_) s (i * qk_size V m + j) in
      let v i s j := run (value_proj V m) (value_size V m) (entry value) s (i * vo_size V m + j) in
      let w i := soft nkv (masked (mask_fn mask i) (logit (qk_size V m) (q i) (k i))) in
      (forall i, i < h -> dropout (head_key key h i) (tab nq nkv (w i)) = Ok (tab nq nkv (D i))) ->
      call m query key_ value mask key None
      = Ok (tab nq (output_size V m)
              (heads_sum h (vo_size V m) (entry (weight V (output_proj V m))) (bias_fn V zero (output_proj V m))
                 (fun i => attend nkv (D i) (v i)))).
    Proof.
      intros m query key_ value mask key D Hm Rq Rk Rv HM h nq nkv q k v w HD.
      rewrite (call_unfold _ _ _ _ _ _ _ Hm Rq Rk Rv HM). cbn [bind].
      exact (attend_heads m nq nkv (fun s i => q i s) (fun s i => k i s) (fun s i => v i s) mask key D Hm HM HD).
    Qed.

    (** With [process_heads]: refused if it changes a shape, otherwise the same with the new heads. *)
    Theorem C69_process_heads : forall m query key_ value mask key f q' k' v',
      mha_ok m -> rect (length query) (query_size V m) query -> rect (length key_) (key_size V m) key_ ->
      rect (length key_) (value_size V m) value -> mask_ok mask (num_heads V m) (length query) (length key_) ->
      let h := num_heads V m in let nq := length query in let nkv := length key_ in
      let q s i j := run (query_proj V m) (query_size V m) (entry query) s (i * qk_size V m + j) in
      let k s i j := run (key_proj V m) (key_size V m) (entry key_) s (i * qk_size V m + j) in
      let v s i j := run (value_proj V m) (value_size V m) (entry value) s (i * vo_size V m + j) in
      f (tab3 nq h (qk_size V m) q) (tab3 nkv h (qk_size V m) k) (tab3 nkv h (vo_size V m) v) = Ok (q', k', v') ->
      (has_shape V nq h (qk_size V m) q' && has_shape V nkv h (qk_size V m) k' && has_shape V nkv h (vo_size V m) v' = false ->
       call m query key_ value mask key (Some f) = Err ValueError) /\
      (has_shape V nq h (qk_size V m) q' && has_shape V nkv h (qk_size V m) k' && has_shape V nkv h (vo_size V m) v' = true ->
       let w i := soft nkv (masked (mask_fn mask i)
                    (logit (qk_size V m) (fun s => entry3 q' s i) (fun s => entry3 k' s i))) in
       forall D,
       (forall i, i < h -> dropout (head_key key h i) (tab nq nkv (w i)) = Ok (tab nq nkv (D i))) ->
       call m query key_ value mask key (Some f)
       = Ok (tab nq (output_size V m)
               (heads_sum h (vo_size V m) (entry (weight V (output_proj V m))) (bias_fn V zero (output_proj V m))
                  (fun i => attend nkv (D i) (fun S => entry3 v' S i))))).
    Proof.
      intros m query key_ value mask key f q' k' v' Hm Rq Rk Rv HM h nq nkv q k v Hf.
      rewrite (call_unfold _ _ _ _ _ _ _ Hm Rq Rk Rv HM).
      change (f (tab3 (length query) (num_heads V m) (qk_size V m) q) (tab3 (length key_) (num_heads V m) (qk_size V m) k)
                (tab3 (length key_) (num_heads V m) (vo_size V m) v) = Ok (q', k', v')) in Hf.
      fold q k v. rewrite Hf. cbn [bind]. split.
      - intros E. unfold h, nq, nkv in E. rewrite E. reflexivity.
      - intros E D HD. unfold h, nq, nkv in E. rewrite E. cbn [bind].
        apply andb_true_iff in E as [E E3]. apply andb_true_iff in E as [E1 E2].
        pose proof (attend_heads m (length query) (length key_) (entry3 q') (entry3 k') (entry3 v') mask key D Hm HM HD) as A.
        rewrite <- (has_shape_tab3 _ zero _ _ _ _ E1), <- (has_shape_tab3 _ zero _ _ _ _ E2),
          <- (has_shape_tab3 _ zero _ _ _ _ E3) in A.
        exact A.
    Qed.

    (** Dropout works entry by entry and keeps zeros: for the theorems on masks. *)
    Definition entrywise : Prop := exists g, forall key n m f,
      dropout key (tab n m f) = Ok (tab n m (fun s S => g key n m s S (f s S))) /\
      forall s S, g key n m s S zero = zero.

    (** Two calls that agree on what query [s] can see give the same output for query [s] — provided that a masked
        entry has weight zero, that is, that the exponential underflows at the distance of [fmin] from the largest
        logit of the row. *)
    Theorem C69_masked_irrelevant : forall m query key_ value key' value' mask key out out' s,
      (forall x, mul zero x = zero) -> (forall x, div zero x = zero) -> entrywise ->
      mha_ok m -> rect (length query) (query_size V m) query ->
      rect (length key_) (key_size V m) key_ -> rect (length key_) (value_size V m) value ->
      rect (length key_) (key_size V m) key' -> rect (length key_) (value_size V m) value' ->
      mask_ok mask (num_heads V m) (length query) (length key_) ->
      s < length query ->
      (forall i S, i < num_heads V m -> S < length key_ -> visible mask i s S = true ->
         nth S key_ [] = nth S key' [] /\ nth S value [] = nth S value' []) ->
      (forall i, i < num_heads V m -> let nkv := length key_ in
         let q i s j := run (query_proj V m) (query_size V m) (entry query) s (i * qk_size V m + j) in
         let k i s j := run (key_proj V m) (key_size V m) (entry key_) s (i * qk_size V m + j) in
         exp (sub fmin (bigmax V vmax nkv (masked (mask_fn mask i) (logit (qk_size V m) (q i) (k i)) s))) = zero) ->
      call m query key_ value mask key None = Ok out -> call m query key' value' mask key None = Ok out' ->
      nth s out [] = nth s out' [].
    Proof.
      intros m query key_ value key' value' mask key out out' s Hmul Hdiv (g & Hg) Hm Rq Rk Rv Rk' Rv' HM Hs Hvis Hexp H H'.
      assert (El : length key' = length key_) by apply Rk'.
      set (h := num_heads V m) in *. set (nq := length query) in *. set (nkv := length key_) in *.
      set (q := fun i s j => run (query_proj V m) (query_size V m) (entry query) s (i * qk_size V m + j)).
      set (k := fun i s j => run (key_proj V m) (key_size V m) (entry key_) s (i * qk_size V m + j)).
      set (k2 := fun i s j => run (key_proj V m) (key_size V m) (entry key') s (i * qk_size V m + j)).
      set (v := fun i s j => run (value_proj V m) (value_size V m) (entry value) s (i * vo_size V m + j)).
      set (v2 := fun i s j => run (value_proj V m) (value_size V m) (entry value') s (i * vo_size V m + j)).
      set (w := fun i => soft nkv (masked (mask_fn mask i) (logit (qk_size V m) (q i) (k i)))).
      set (w2 := fun i => soft nkv (masked (mask_fn mask i) (logit (qk_size V m) (q i) (k2 i)))).
      set (D := fun i s S => g (head_key key h i) nq nkv s S (w i s S)).
      set (D2 := fun i s S => g (head_key key h i) nq nkv s S (w2 i s S)).
      pose proof (C69_formula m query key_ value mask key D Hm Rq Rk Rv HM) as F. cbv zeta in F.
      rewrite F in H; [|intros i Hi; exact (proj1 (Hg _ _ _ (w i)))].
      assert (Rk2 : rect (length key') (key_size V m) key') by (rewrite El; exact Rk').
      assert (Rv2 : rect (length key') (value_size V m) value') by (rewrite El; exact Rv').
      assert (HM2 : mask_ok mask (num_heads V m) (length query) (length key')) by (rewrite El; exact HM).
      pose proof (C69_formula m query key' value' mask key D2 Hm Rq Rk2 Rv2 HM2) as F2. cbv zeta in F2.
      rewrite El in F2. rewrite F2 in H'; [|intros i Hi; exact (proj1 (Hg _ _ _ (w2 i)))].
      match type of H with Ok ?x = Ok out => assert (Eo : out = x) by congruence end.
      match type of H' with Ok ?x = Ok out' => assert (Eo' : out' = x) by congruence end.
      rewrite Eo, Eo'. fold nq h nkv v v2. rewrite !tab_row by exact Hs.
      apply map_seq_ext. intros o Ho.
      (* what is visible projects to the same *)
      assert (Ek : forall i S, i < h -> S < nkv -> visible mask i s S = true -> k i S = k2 i S /\ v i S = v2 i S).
      { intros i S Hi HS Hv. destruct (Hvis i S Hi HS Hv) as [E1 E2]. unfold k, k2, v, v2.
        unfold Attention_Proofs.run, affine, Attention_Proofs.entry. rewrite E1, E2. split; reflexivity. }
      assert (Erow : forall i S, i < h -> S < nkv ->
                masked (mask_fn mask i) (logit (qk_size V m) (q i) (k i)) s S
                = masked (mask_fn mask i) (logit (qk_size V m) (q i) (k2 i)) s S).
      { intros i S Hi HS. unfold Attention_Spec.masked. specialize (Ek i S Hi HS). unfold visible in Ek.
        destruct (mask_fn mask i) as [mm|].
        - destruct (mm s S); [|reflexivity]. destruct (Ek eq_refl) as [E _].
          unfold Attention_Spec.logit. rewrite E. reflexivity.
        - destruct (Ek eq_refl) as [E _]. unfold Attention_Spec.logit. rewrite E. reflexivity. }
      assert (Hpos : forall S, S < nkv -> 0 < nkv) by (intros; lia).
      assert (Emax : forall i, i < h -> 0 < nkv ->
                bigmax V vmax nkv (masked (mask_fn mask i) (logit (qk_size V m) (q i) (k i)) s)
                = bigmax V vmax nkv (masked (mask_fn mask i) (logit (qk_size V m) (q i) (k2 i)) s)).
      { intros i Hi Hn. unfold bigmax. rewrite (Erow i 0 Hi Hn). f_equal. apply map_seq_ext. intros S HS. apply Erow; lia. }
      assert (Ew : forall i S, i < h -> S < nkv -> w i s S = w2 i s S).
      { intros i S Hi HS. unfold w, w2, Attention_Spec.soft. rewrite (Emax i Hi (Hpos S HS)), (Erow i S Hi HS).
        f_equal. apply bigsum_ext. intros S' HS'. rewrite (Erow i S' Hi HS'). reflexivity. }
      assert (Ew0 : forall i S, i < h -> S < nkv -> visible mask i s S = false -> w i s S = zero).
      { intros i S Hi HS Hv. unfold w, Attention_Spec.soft. unfold Attention_Spec.masked at 1. unfold visible in Hv.
        specialize (Hexp i Hi). cbv zeta in Hexp. fold q k nkv in Hexp.
        destruct (mask_fn mask i) as [mm|]; [|discriminate]. rewrite Hv.
        change (div (exp (sub fmin (bigmax V vmax nkv (masked (Some mm) (logit (qk_size V m) (q i) (k i)) s))))
                  (bigsum nkv (fun S => exp (sub (masked (Some mm) (logit (qk_size V m) (q i) (k i)) s S)
                     (bigmax V vmax nkv (masked (Some mm) (logit (qk_size V m) (q i) (k i)) s))))) = zero).
        rewrite Hexp. apply Hdiv. }
      assert (Ea : forall i j, i < h -> attend nkv (D i) (v i) s j = attend nkv (D2 i) (v2 i) s j).
      { intros i j Hi. unfold Attention_Spec.attend. apply bigsum_ext. intros S HS. unfold D, D2.
        rewrite <- (Ew i S Hi HS). destruct (visible mask i s S) eqn:Hv.
        - destruct (Ek i S Hi HS Hv) as [_ E]. rewrite E. reflexivity.
        - rewrite (Ew0 i S Hi HS Hv). rewrite (proj2 (Hg _ _ _ (fun _ _ => zero))). rewrite !Hmul. reflexivity. }
      unfold Attention_Spec.heads_sum.
      assert (Es : bigsum h (fun i => bigsum (vo_size V m)
                      (fun j => mul (entry (weight V (output_proj V m)) o (i * vo_size V m + j)) (attend nkv (D i) (v i) s j)))
                 = bigsum h (fun i => bigsum (vo_size V m)
                      (fun j => mul (entry (weight V (output_proj V m)) o (i * vo_size V m + j)) (attend nkv (D2 i) (v2 i) s j)))).
      { apply bigsum_ext. intros i Hi. apply bigsum_ext. intros j Hj. rewrite (Ea i j Hi). reflexivity. }
      destruct (bias_fn V zero (output_proj V m)) as [b|]; [|exact Es].
      exact (f_equal (fun y => add y (b o)) Es).
    Qed.
  End Formula.

  (** Which calls are refused. *)
  Theorem C69_lengths : forall m query key_ value mask key pr,
    length key_ <> length value -> call m query key_ value mask key pr = Err ValueError.
  Proof.
    intros m query key_ value mask key pr H. unfold call_mha. apply Nat.eqb_neq in H. rewrite H. reflexivity.
  Qed.
  (** Arrays whose rows have not the sizes of the module are refused. *)
  Lemma project_width h l i o j x : layer_ok V l i o -> rect (length x) j x -> x <> [] -> j <> i -> project V zero add mul h l x = Err TypeError.
  Proof.
    intros (Hi & _) [_ Hx] Hn Hj. destruct x as [|r x]; [congruence|]. unfold project, through. cbn [mapM]. unfold call_linear. rewrite Hi. cbn [bind matvec dim].
    rewrite (Hx r (or_introl eq_refl)). destruct (Nat.eqb_spec i j); [congruence|]. reflexivity.
  Qed.
  Theorem C69_widths : forall m query key_ value mask key pr i j k,
    mha_ok m -> rect (length query) i query -> rect (length key_) j key_ -> rect (length key_) k value ->
    query <> [] -> key_ <> [] -> (i <> query_size V m \/ j <> key_size V m \/ k <> value_size V m) ->
    call m query key_ value mask key pr = Err TypeError.
  Proof.
    intros m query key_ value mask key pr i j k (Hh & Lq & Lk & Lv & Lo) Rq Rk Rv Nq Nk HN. unfold call_mha.
    assert (Ev : length value = length key_) by apply Rv. rewrite Ev, Nat.eqb_refl. cbn [negb].
    assert (Nv : value <> []) by (intros ->; destruct key_; [congruence|discriminate]).
    destruct (Nat.eq_dec i (query_size V m)) as [->|Ni]; [|rewrite (project_width _ _ _ _ _ _ Lq Rq Nq Ni); reflexivity].
    rewrite (rect_tab _ zero _ _ _ Rq) at 1. erewrite project_tab by eassumption. cbn [bind].
    destruct (Nat.eq_dec j (key_size V m)) as [->|Nj]; [|rewrite (project_width _ _ _ _ _ _ Lk Rk Nk Nj); reflexivity].
    rewrite (rect_tab _ zero _ _ _ Rk) at 1. erewrite project_tab by eassumption. cbn [bind].
    assert (Nk' : k <> value_size V m) by tauto. rewrite <- Ev in Rv. rewrite (project_width _ _ _ _ _ _ Lv Rv Nv Nk'). reflexivity.
  Qed.
  (** A module without heads (which [C69_no_heads] allows) cannot be called. *)
  Theorem C69_no_heads_call : forall m query key_ value mask key pr,
    num_heads V m = 0 -> layer_ok V (query_proj V m) (query_size V m) 0 -> rect (length query) (query_size V m) query ->
    query <> [] -> length key_ = length value -> call m query key_ value mask key pr = Err ZeroDivisionError.
  Proof.
    intros m query key_ value mask key pr Hh Lq Rq Nq E. unfold call_mha. rewrite E, Nat.eqb_refl, Hh. cbn [negb]. unfold project.
    rewrite (rect_tab _ zero _ _ _ Rq) at 1. erewrite through_tab by eassumption. destruct query; [congruence|]. reflexivity.
  Qed.
  Theorem C69_mask_shape : forall m query key_ value mask key,
    mha_ok m -> rect (length query) (query_size V m) query -> rect (length key_) (key_size V m) key_ ->
    rect (length key_) (value_size V m) value ->
    (forall key w, exists d, dropout key w = Ok d) ->
    ~ mask_ok mask (num_heads V m) (length query) (length key_) ->
    call m query key_ value mask key None = Err ValueError.
  Proof.
    intros m query key_ value mask key Hm Rq Rk Rv Hd HM.
    destruct Hm as (Hh & Lq & Lk & Lv & Lo). unfold call_mha.
    assert (Ev : length value = length key_) by apply Rv. rewrite Ev, Nat.eqb_refl. cbn [negb].
    assert (Eq : exists Q, project V zero add mul (num_heads V m) (query_proj V m) query
                 = Ok (tab3 (length query) (num_heads V m) (qk_size V m) Q)).
    { eexists. rewrite (rect_tab _ zero _ _ _ Rq) at 1. apply project_tab; eassumption. }
    assert (Ek : exists Q, project V zero add mul (num_heads V m) (key_proj V m) key_
                 = Ok (tab3 (length key_) (num_heads V m) (qk_size V m) Q)).
    { eexists. rewrite (rect_tab _ zero _ _ _ Rk) at 1. apply project_tab; eassumption. }
    assert (Eu : exists Q, project V zero add mul (num_heads V m) (value_proj V m) value
                 = Ok (tab3 (length key_) (num_heads V m) (vo_size V m) Q)).
    { eexists. rewrite (rect_tab _ zero _ _ _ Rv) at 1. apply project_tab; eassumption. }
    destruct Eq as (Q & Eq), Ek as (K & Ek), Eu as (U & Eu). rewrite Eq, Ek, Eu. cbn [bind].
    destruct (num_heads V m) as [|h] eqn:Eh; [contradiction|].
    assert (Z : forall r c mm (b : nat -> nat -> bool), mm = Some (r, c, b) -> ~ (r = length query /\ c = length key_) ->
      forall ky, dot_product_attention V Key zero add mul sub div vmax exp sqrt fmin dropout (vo_size V m)
        (head V 0 (tab3 (length query) (S h) (qk_size V m) Q)) (head V 0 (tab3 (length key_) (S h) (qk_size V m) K))
        (head V 0 (tab3 (length key_) (S h) (vo_size V m) U)) mm ky = Err ValueError).
    { intros r c mm b -> N ky. unfold dot_product_attention, attention_weights. rewrite !head_tab3 by lia.
      rewrite !tab_length. unfold apply_mask. destruct (Nat.eqb_spec r (length query)) as [->|]; [|reflexivity].
      destruct (Nat.eqb_spec c (length key_)) as [->|]; [|reflexivity]. exfalso. apply N. split; reflexivity. }
    destruct mask as [|r c b|h' r c b|]; cbn in HM; [tauto| | |reflexivity].
    - cbn [bind seq mapM]. rewrite (Z r c _ b eq_refl HM). reflexivity.
    - destruct (Nat.eqb_spec h' (S h)) as [->|]; [|reflexivity]. cbn [bind seq mapM].
      assert (N : ~ (r = length query /\ c = length key_)) by tauto.
      change (mask_of (Mask3 (S h) r c b) 0) with (Some (r, c, b 0)). rewrite (Z r c _ (b 0) eq_refl N). reflexivity.
  Qed.

  (** The weights of a query sum to one. *)
  Theorem C69_weights_sum : forall one nkv l s,
    (forall x, add zero x = x) ->
    (forall a b c, div (add a b) c = add (div a c) (div b c)) -> (forall c, div zero c = zero) ->
    (forall c, c <> zero -> div c c = one) ->
    bigsum nkv (fun S => exp (sub (l s S) (bigmax V vmax nkv (l s)))) <> zero ->
    bigsum nkv (soft nkv l s) = one.
  Proof.
    intros one nkv l s H0 Hd Hz H1 Hn. unfold Attention_Spec.soft. cbv zeta.
    set (e := fun S => exp (sub (l s S) (bigmax V vmax nkv (l s)))) in *.
    change (bigsum nkv (fun S => div (e S) (bigsum nkv e)) = one).
    rewrite <- (H1 _ Hn). generalize (bigsum nkv e) at 1 3. intros c. unfold Attention_Spec.bigsum.
    induction (seq 0 nkv) as [|x r IH]; [cbn; symmetry; apply Hz|].
    cbn [map fold_right]. rewrite IH, Hd. reflexivity.
  Qed.
  (** A query that may see nothing attends to all positions alike. *)
  Theorem C69_fully_masked : forall nkv mask l s S S',
    S < nkv -> S' < nkv -> (forall S, S < nkv -> mask s S = false) ->
    soft nkv (masked (Some mask) l) s S = soft nkv (masked (Some mask) l) s S'.
  Proof.
    intros nkv mask l s S S' HS HS' Hm. unfold Attention_Spec.soft, Attention_Spec.masked.
    rewrite (Hm S HS), (Hm S' HS'). reflexivity.
  Qed.

  (** The order of the positions attended to does not matter (without dropout). *)
  Definition permute_mask (p : list nat) (mask : mask_t) : mask_t :=
    match mask with
    | NoMask => NoMask
    | Mask2 r c m => Mask2 r c (fun s S => m s (nth S p 0))
    | Mask3 h r c m => Mask3 h r c (fun i s S => m i s (nth S p 0))
    | MaskOther => MaskOther
    end.
  Section Permutation.
    Hypothesis add_assoc : forall x y z, add x (add y z) = add (add x y) z.
    Hypothesis add_0_l : forall x, add zero x = x.
    Hypothesis add_comm : forall x y, add x y = add y x.
    Hypothesis vmax_assoc : forall x y z, vmax x (vmax y z) = vmax (vmax x y) z.
    Hypothesis vmax_comm : forall x y, vmax x y = vmax y x.
    Hypothesis no_dropout : forall key w, dropout key w = Ok w.

    Lemma sum_permutation l l' : Permutation l l' -> fold_right add zero l = fold_right add zero l'.
    Proof.
      induction 1 as [|x l l' _ IH|x y l|l l' l'' _ IH1 _ IH2]; cbn; [reflexivity|rewrite IH; reflexivity| |rewrite IH1; exact IH2].
      rewrite !add_assoc, (add_comm y x). reflexivity.
    Qed.
    Lemma permuted_seq {B} (F : nat -> B) n p : Permutation p (seq 0 n) ->
      Permutation (map (fun S => F (nth S p 0)) (seq 0 n)) (map F (seq 0 n)).
    Proof.
      intros H. assert (E : length p = n) by (rewrite (Permutation_length H), seq_length; reflexivity).
      rewrite <- (map_map (fun S => nth S p 0) F). apply Permutation_map. rewrite <- E at 1. rewrite map_nth_seq. exact H.
    Qed.
    Lemma bigsum_permuted F n p : Permutation p (seq 0 n) -> bigsum n (fun S => F (nth S p 0)) = bigsum n F.
    Proof. intros H. apply sum_permutation, permuted_seq. exact H. Qed.
    Definition omax (x : V) (o : option V) : option V := match o with None => Some x | Some y => Some (vmax x y) end.
    Lemma omax_permutation l l' : Permutation l l' -> fold_right omax None l = fold_right omax None l'.
    Proof.
      induction 1 as [|x l l' _ IH|x y l|l l' l'' _ IH1 _ IH2]; cbn; [reflexivity|rewrite IH; reflexivity| |rewrite IH1; exact IH2].
      destruct (fold_right omax None l) as [z|]; cbn.
      - rewrite !vmax_assoc, (vmax_comm y x). reflexivity.
      - rewrite vmax_comm. reflexivity.
    Qed.
    Lemma fold_omax l x : Some (fold_left vmax l x) = fold_right omax None (x :: l).
    Proof.
      revert x. induction l as [|y l IH]; intros x; [reflexivity|].
      cbn [fold_left]. rewrite IH. cbn [fold_right]. destruct (fold_right omax None l) as [z|]; cbn.
      - rewrite vmax_assoc. reflexivity.
      - reflexivity.
    Qed.
    Lemma bigmax_permuted F n p : Permutation p (seq 0 n) -> 0 < n ->
      bigmax V vmax n (fun S => F (nth S p 0)) = bigmax V vmax n F.
    Proof.
      intros H Hn. assert (E : forall G, Some (bigmax V vmax n G) = fold_right omax None (map G (seq 0 n))).
      { intros G. unfold bigmax. rewrite fold_omax. destruct n as [|n]; [lia|]. cbn [seq map].
        replace (S n - 1) with n by lia. reflexivity. }
      assert (E2 : Some (bigmax V vmax n (fun S => F (nth S p 0))) = Some (bigmax V vmax n F)).
      { rewrite !E. apply omax_permutation, permuted_seq. exact H. }
      congruence.
    Qed.

    Theorem C69_permutation : forall m query key_ value mask key p,
      mha_ok m -> rect (length query) (query_size V m) query -> rect (length key_) (key_size V m) key_ ->
      rect (length key_) (value_size V m) value -> mask_ok mask (num_heads V m) (length query) (length key_) ->
      Permutation p (seq 0 (length key_)) ->
      call m query (map (fun S => nth S key_ []) p) (map (fun S => nth S value []) p) (permute_mask p mask) key None
      = call m query key_ value mask key None.
    Proof.
      intros m query key_ value mask key p Hm Rq Rk Rv HM Hp.
      set (key' := map (fun S => nth S key_ []) p). set (value' := map (fun S => nth S value []) p).
      assert (Lp : length p = length key_) by (rewrite (Permutation_length Hp), seq_length; reflexivity).
      assert (El : length key' = length key_) by (unfold key'; rewrite map_length; exact Lp).
      assert (Bp : forall S, In S p -> S < length key_).
      { intros S HS. apply (Permutation_in _ Hp) in HS. apply in_seq in HS. lia. }
      assert (Rk' : rect (length key') (key_size V m) key').
      { split; [reflexivity|]. intros r Hr. unfold key' in Hr. apply in_map_iff in Hr as (S & <- & HS).
        apply (proj2 Rk), nth_In. apply Bp, HS. }
      assert (Rv' : rect (length key') (value_size V m) value').
      { split; [rewrite El; unfold value'; rewrite map_length; exact Lp|].
        intros r Hr. unfold value' in Hr. apply in_map_iff in Hr as (S & <- & HS).
        apply (proj2 Rv), nth_In. rewrite (proj1 Rv). apply Bp, HS. }
      assert (HM' : mask_ok (permute_mask p mask) (num_heads V m) (length query) (length key')).
      { rewrite El. destruct mask; exact HM. }
      set (q := fun i s j => run (query_proj V m) (query_size V m) (entry query) s (i * qk_size V m + j)).
      set (k := fun i s j => run (key_proj V m) (key_size V m) (entry key_) s (i * qk_size V m + j)).
      set (k2 := fun i s j => run (key_proj V m) (key_size V m) (entry key') s (i * qk_size V m + j)).
      set (v := fun i s j => run (value_proj V m) (value_size V m) (entry value) s (i * vo_size V m + j)).
      set (v2 := fun i s j => run (value_proj V m) (value_size V m) (entry value') s (i * vo_size V m + j)).
      set (nkv := length key_) in *.
      set (l := fun i => masked (mask_fn mask i) (logit (qk_size V m) (q i) (k i))).
      set (l2 := fun i => masked (mask_fn (permute_mask p mask) i) (logit (qk_size V m) (q i) (k2 i))).
      pose proof (C69_formula add_assoc add_0_l m query key_ value mask key (fun i => soft nkv (l i)) Hm Rq Rk Rv HM
                    (fun i Hi => no_dropout _ _)) as F.
      pose proof (C69_formula add_assoc add_0_l m query key' value' (permute_mask p mask) key (fun i => soft (length key') (l2 i))
                    Hm Rq Rk' Rv' HM' (fun i Hi => no_dropout _ _)) as F2.
      cbv zeta in F, F2. rewrite El in F2. rewrite F, F2. f_equal. apply tab_ext. intros s o Hs Ho.
      assert (Ek : forall S, S < nkv -> nth S key' [] = nth (nth S p 0) key_ [] /\ nth S value' [] = nth (nth S p 0) value []).
      { intros S HS. unfold key', value'. split.
        - rewrite nth_indep with (d' := nth 0 key_ []) by (rewrite map_length; lia).
          rewrite (map_nth (fun S => nth S key_ [])). reflexivity.
        - rewrite nth_indep with (d' := nth 0 value []) by (rewrite map_length; lia).
          rewrite (map_nth (fun S => nth S value [])). reflexivity. }
      assert (El2 : forall i S, S < nkv -> l2 i s S = l i s (nth S p 0)).
      { intros i S HS. destruct (Ek S HS) as [E _]. unfold l, l2.
        assert (Eg : logit (qk_size V m) (q i) (k2 i) s S = logit (qk_size V m) (q i) (k i) s (nth S p 0)).
        { unfold Attention_Spec.logit, k, k2, Attention_Proofs.run, affine, Attention_Proofs.entry. rewrite E. reflexivity. }
        unfold Attention_Spec.masked. rewrite Eg. destruct mask; reflexivity. }
      assert (Emax : forall i, 0 < nkv -> bigmax V vmax nkv (l2 i s) = bigmax V vmax nkv (l i s)).
      { intros i Hn. rewrite <- (bigmax_permuted (l i s) nkv p Hp Hn). unfold bigmax.
        rewrite (El2 i 0 Hn). f_equal. apply map_seq_ext. intros S HS. apply El2. lia. }
      assert (Ew : forall i S, S < nkv -> soft nkv (l2 i) s S = soft nkv (l i) s (nth S p 0)).
      { intros i S HS. unfold Attention_Spec.soft. rewrite (Emax i) by lia. rewrite (El2 i S HS). f_equal.
        rewrite <- (bigsum_permuted (fun S => exp (sub (l i s S) (bigmax V vmax nkv (l i s)))) nkv p Hp).
        apply bigsum_ext. intros S' HS'. rewrite (El2 i S' HS'). reflexivity. }
      assert (Ea : forall i j, attend nkv (soft nkv (l2 i)) (v2 i) s j = attend nkv (soft nkv (l i)) (v i) s j).
      { intros i j. unfold Attention_Spec.attend.
        rewrite <- (bigsum_permuted (fun S => mul (soft nkv (l i) s S) (v i S j)) nkv p Hp).
        apply bigsum_ext. intros S HS. rewrite (Ew i S HS). f_equal. destruct (Ek S HS) as [_ E].
        unfold v, v2, Attention_Proofs.run, affine, Attention_Proofs.entry. rewrite E. reflexivity. }
      unfold Attention_Spec.heads_sum.
      assert (Es : bigsum (num_heads V m) (fun i => bigsum (vo_size V m)
                      (fun j => mul (entry (weight V (output_proj V m)) o (i * vo_size V m + j)) (attend nkv (soft nkv (l2 i)) (v2 i) s j)))
                 = bigsum (num_heads V m) (fun i => bigsum (vo_size V m)
                      (fun j => mul (entry (weight V (output_proj V m)) o (i * vo_size V m + j)) (attend nkv (soft nkv (l i)) (v i) s j)))).
      { apply bigsum_ext. intros i Hi. apply bigsum_ext. intros j Hj. rewrite (Ea i j). reflexivity. }
      destruct (bias_fn V zero (output_proj V m)) as [b|]; [|exact Es].
      exact (f_equal (fun y => add y (b o)) Es).
    Qed.
  End Permutation.
End Props.

(** ** Examples: exact rationals, one input channel, two heads; the "exponential" is 1 + x + x^2 cut off at -100. *)
Section Examples.
  Local Open Scope Q_scope.
  Definition e_exp (x : Q) : Q := if Qle_bool x (-100 # 1) then 0 else 1 + x + x * x.
  Definition e_max (x y : Q) : Q := if Qle_bool x y then y else x.
  Definition e_div (x y : Q) : Q := Qred (x / y).
  Definition e_add (x y : Q) : Q := Qred (x + y).
  Definition e_lin (i o : nat) (b : option (list Q)) (w : list (list Q)) : Mlp_Model.linear Q :=
    {| weight := w; bias := b; in_features := Size i; out_features := Size o; use_bias := false |}.
  Definition e_mha : mha Q :=
    {| query_proj := e_lin 1 2 None [[1]; [2]]; key_proj := e_lin 1 2 (Some [1; 0]) [[1]; [1]];
       value_proj := e_lin 1 2 None [[1]; [3]]; output_proj := e_lin 2 1 (Some [5]) [[1; 10]];
       num_heads := 2; query_size := 1; key_size := 1; value_size := 1; output_size := 1; qk_size := 1; vo_size := 1 |}.
  Definition e_call := call_mha Q nat 0 e_add Qmult Qminus e_div e_max e_exp (fun _ => 1) (-1000000 # 1)
                         (fun k n => repeat k n) (fun _ w => Ok w) e_mha.
  Example C69_ex_ok : mha_ok Q e_mha.
  Proof.
    repeat split; try discriminate; cbn; intros r H; repeat (destruct H as [<-|H]; [reflexivity|]); contradiction.
  Qed.
  Example C69_ex_call : exists out, e_call [[1]; [2]] [[1]; [3]] [[7]; [9]] NoMask None None = Ok out /\ length out = 2%nat.
  Proof. eexists. split; vm_compute; reflexivity. Qed.
  (** One position masked: only the other value counts: 5 + 7 + 10 * 21. *)
  Example C69_ex_mask : e_call [[1]] [[1]; [3]] [[7]; [9]] (Mask2 1 2 (fun _ S => Nat.eqb S 0)) None None = Ok [[222 # 1]].
  Proof. vm_compute. reflexivity. Qed.
  Example C69_ex_mask_shape : e_call [[1]] [[1]; [3]] [[7]; [9]] (Mask2 2 2 (fun _ _ => true)) None None = Err ValueError.
  Proof. vm_compute. reflexivity. Qed.
  Example C69_ex_permuted :
    e_call [[1]; [2]] [[3]; [1]] [[9]; [7]] NoMask None None = e_call [[1]; [2]] [[1]; [3]] [[7]; [9]] NoMask None None.
  Proof. vm_compute. reflexivity. Qed.
  (** The docstring ("A value of False at a position indicates that position should be ignored") fails for a query
      for which every position is masked: the values of the masked positions are averaged. *)
  Theorem C69_fully_masked_refuted : exists query key_ value value' mask,
    (forall i s S, visible mask i s S = false) /\
    e_call query key_ value mask None None <> e_call query key_ value' mask None None.
  Proof.
    exists [[1]], [[1]; [3]], [[7]; [9]], [[7]; [11]], (Mask2 1 2 (fun _ _ => false)). split; [reflexivity|].
    vm_compute. discriminate.
  Qed.
End Examples.
Print Assumptions C69_keys.
Print Assumptions C69_formula.
Print Assumptions C69_masked_irrelevant.
Print Assumptions C69_permutation.
Print Assumptions C69_mask_shape.
Print Assumptions C69_made.
Print Assumptions C69_process_heads.
Print Assumptions C69_lengths.
Print Assumptions C69_weights_sum.
Print Assumptions C69_fully_masked.
Print Assumptions C69_fully_masked_refuted.
Print Assumptions C69_no_heads.
Print Assumptions C69_widths.
Print Assumptions C69_no_heads_call.
