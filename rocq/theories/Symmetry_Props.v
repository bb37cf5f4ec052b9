(** C115: renumbering the hidden units of an MLP, or the heads of an attention layer, changes no result.

    A renumbering of [n] units is a list [p] that is a permutation of [0, ..., n - 1]: unit [j] of the new layer is unit
    [nth j p 0] of the old one. *)
From Coq Require Import Lia Permutation ZArith.
From Verif Require Import Attention_Proofs Attention_Props Mlp_Model.
From Verif Require Mlp_Props.
Local Open Scope nat_scope.
Local Open Scope list_scope.

(** *** Specification *)
Definition renumber {A} (p : list nat) (l : list A) (d : A) : list A := map (fun i => nth i l d) p.
(** The rows of blocks [p] of [d] rows each. *)
Definition blocks (d : nat) (p : list nat) : list nat := concat (map (fun i => seq (i * d) d) p).
Section Spec.
  Variables (V : Type) (zero : V).
  (** A layer with its outputs, or its inputs, renumbered. *)
  Definition outputs (p : list nat) (l : linear V) : linear V :=
    {| weight := renumber p (weight V l) []; bias := match bias V l with Some b => Some (renumber p b zero) | None => None end;
       in_features := in_features V l; out_features := out_features V l; use_bias := use_bias V l |}.
  Definition inputs (p : list nat) (l : linear V) : linear V :=
    {| weight := map (fun row => renumber p row zero) (weight V l); bias := bias V l;
       in_features := in_features V l; out_features := out_features V l; use_bias := use_bias V l |}.
  (** The units of hidden layer [k] of an MLP renumbered, each with its own activation. *)
  Definition unit_layer (k : nat) (p : list nat) (i : nat) (l : linear V) : linear V :=
    if Nat.eqb i k then outputs p l else if Nat.eqb i (S k) then inputs p l else l.
  Definition renumber_weights (k : nat) (p : list nat) (m : mlp V) (a : nat -> nat -> V -> V) : mlp V :=
    {| layers := zip (unit_layer k p) (seq 0 (length (layers V m))) (layers V m); act := a;
       final := final V m; in_size := in_size V m; out_size := out_size V m; width := width V m; depth := depth V m;
       m_bias := m_bias V m; m_final_bias := m_final_bias V m |}.
  Definition renumber_units (k : nat) (p : list nat) (m : mlp V) : mlp V :=
    renumber_weights k p m (fun i j => if Nat.eqb i k then act V m i (nth j p 0) else act V m i j).
  (** The heads of an attention layer renumbered, and a mask with one matrix for each head. *)
  Definition renumber_heads (p : list nat) (m : mha V) : mha V :=
    {| query_proj := outputs (blocks (qk_size V m) p) (query_proj V m); key_proj := outputs (blocks (qk_size V m) p) (key_proj V m);
       value_proj := outputs (blocks (vo_size V m) p) (value_proj V m); output_proj := inputs (blocks (vo_size V m) p) (output_proj V m);
       num_heads := num_heads V m; query_size := query_size V m; key_size := key_size V m; value_size := value_size V m;
       output_size := output_size V m; qk_size := qk_size V m; vo_size := vo_size V m |}.
End Spec.
Definition renumber_mask (p : list nat) (mask : mask_t) : mask_t :=
  match mask with Mask3 h r c m => Mask3 h r c (fun i => m (nth i p 0)) | _ => mask end.

(** *** Lists *)
Lemma renumber_length {A} p (l : list A) d : length (renumber p l d) = length p.
Proof. apply map_length. Qed.
Lemma renumber_nth {A} p (l : list A) d j e : j < length p -> nth j (renumber p l d) e = nth (nth j p 0) l d.
Proof.
  intros H. unfold renumber. rewrite nth_indep with (d' := nth 0 l d) by (rewrite map_length; exact H).
  rewrite (map_nth (fun i => nth i l d)). reflexivity.
Qed.
Lemma perm_length p n : Permutation p (seq 0 n) -> length p = n.
Proof. intros H. rewrite (Permutation_length H). apply seq_length. Qed.
Lemma perm_bound p n i : Permutation p (seq 0 n) -> In i p -> i < n.
Proof. intros H Hi. apply (Permutation_in _ H) in Hi. apply in_seq in Hi. lia. Qed.
Lemma zip_nth {X Y Z} (f : X -> Y -> Z) a : forall b i dx dy dz, i < length a -> i < length b -> nth i (zip f a b) dz = f (nth i a dx) (nth i b dy).
Proof. induction a as [|x a IH]; intros [|y b] i dx dy dz Ha Hb; cbn in Ha, Hb; try lia. destruct i; cbn; [reflexivity|]. apply IH; lia. Qed.

(** *** MLPs *)
Section Units.
  Variables (V : Type) (zero : V) (add mul : V -> V -> V).
  Hypothesis add_comm : forall x y, add x y = add y x.
  Hypothesis add_assoc : forall x y z, add x (add y z) = add (add x y) z.
  Local Notation dot := (dot V zero add mul).
  Local Notation call_linear := (call_linear V zero add mul).
  Local Notation loop := (Mlp_Model.loop V zero add mul).
  Local Notation well := (Mlp_Props.well V).

  Lemma sum_perm l l' : Permutation l l' -> fold_right add zero l = fold_right add zero l'.
  Proof.
    induction 1 as [|x l l' _ IH|x y l|l l' l'' _ IH1 _ IH2]; cbn; [reflexivity|rewrite IH; reflexivity| |rewrite IH1; exact IH2].
    rewrite !add_assoc, (add_comm y x). reflexivity.
  Qed.
  Lemma dot_renumber p n a b : Permutation p (seq 0 n) -> length a = n -> length b = n ->
    dot (renumber p a zero) (renumber p b zero) = dot a b.
  Proof.
    intros Hp Ha Hb. unfold renumber. rewrite dot_maps.
    transitivity (dot (map (fun i => nth i a zero) (seq 0 n)) (map (fun i => nth i b zero) (seq 0 n))).
    - rewrite dot_maps. apply sum_perm, Permutation_map, Hp.
    - rewrite <- Ha at 1. rewrite <- Hb. rewrite !map_nth_seq. reflexivity.
  Qed.
  Lemma zip_add_renumber p y b n : length y = n -> length b = n -> (forall i, In i p -> i < n) ->
    zip add (renumber p y zero) (renumber p b zero) = renumber p (zip add y b) zero.
  Proof using. clear add_comm add_assoc mul.
    intros Hy Hb. induction p as [|i p IH]; intros Hp; [reflexivity|]. cbn [renumber map zip].
    f_equal; [|apply IH; intros j Hj; apply Hp; right; exact Hj].
    specialize (Hp i (or_introl eq_refl)). symmetry. apply zip_nth; lia.
  Qed.
  (** The renumbered layer gives the renumbered outputs. *)
  Lemma call_outputs p n l x : Permutation p (seq 0 n) -> well l -> out_features V l = Size n ->
    call_linear (outputs V zero p l) x =
    (y <- call_linear l x ;; match y with Vec _ vs => Ok (Vec V (renumber p vs zero)) | Sc _ _ => Err ValueError end) /\
    forall y, call_linear l x = Ok y -> exists vs, y = Vec V vs /\ length vs = n.
  Proof using. clear add_comm add_assoc.
    intros Hp (Hw & Hr & Hb) Ho. rewrite Ho in Hw, Hb. cbn [dim] in Hw, Hb.
    unfold Mlp_Model.call_linear. cbn [outputs in_features out_features weight bias]. rewrite Ho.
    set (x' := match in_features V l with Scalar => _ | Size _ => _ end). destruct x' as [x'|e]; [|split; [reflexivity|discriminate]].
    cbn [bind]. unfold matvec. destruct x' as [v|vs]; [split; [reflexivity|discriminate]|].
    destruct (Nat.eqb (dim (in_features V l)) (length vs)); [|split; [reflexivity|discriminate]]. cbn [bind].
    assert (Ey : map (fun row => dot row vs) (renumber p (weight V l) []) = renumber p (map (fun row => dot row vs) (weight V l)) zero).
    { unfold renumber. rewrite map_map. apply map_ext_in. intros i Hi. pose proof (perm_bound _ _ _ Hp Hi) as Hi'.
      rewrite (nth_indep _ zero (dot [] vs)) by (rewrite map_length, Hw; exact Hi'). rewrite (map_nth (fun row => dot row vs)). reflexivity. }
    rewrite Ey. set (y := map (fun row => dot row vs) (weight V l)).
    assert (Ly : length y = n) by (unfold y; rewrite map_length; exact Hw).
    destruct (bias V l) as [b|].
    - destruct Hb as [_ Hb]. rewrite (zip_add_renumber p y b n Ly Hb (fun i => perm_bound p n i Hp)). split; [reflexivity|].
      intros z Hz. injection Hz as <-. eexists. split; [reflexivity|]. rewrite Mlp_Props.zip_length, Ly, Hb. apply Nat.min_id.
    - split; [reflexivity|]. intros z Hz. injection Hz as <-. eexists. split; [reflexivity|]. exact Ly.
  Qed.
  Lemma neurons_renumber p n (f g : nat -> V -> V) vs : Permutation p (seq 0 n) -> length vs = n -> (forall j v, g j v = f (nth j p 0) v) ->
    exists zs, neurons V f (Vec V vs) = Ok (Vec V zs) /\ length zs = n /\ neurons V g (Vec V (renumber p vs zero)) = Ok (Vec V (renumber p zs zero)).
  Proof using. clear add_comm add_assoc add mul.
    intros Hp Hl Hg. unfold neurons. eexists. split; [reflexivity|]. rewrite Mlp_Props.zip_length, seq_length, Nat.min_id.
    split; [exact Hl|]. do 2 f_equal. rewrite renumber_length, (perm_length _ _ Hp).
    apply nth_ext with (d := zero) (d' := zero).
    { rewrite Mlp_Props.zip_length, seq_length, !renumber_length, (perm_length _ _ Hp). apply Nat.min_id. }
    intros j Hj. rewrite Mlp_Props.zip_length, seq_length, renumber_length, (perm_length _ _ Hp), Nat.min_id in Hj.
    assert (Hjp : j < length p) by (rewrite (perm_length _ _ Hp); exact Hj).
    pose proof (perm_bound _ _ _ Hp (nth_In p 0 Hjp)) as Hb.
    rewrite (zip_nth _ _ _ _ 0 zero) by (rewrite ?seq_length, ?renumber_length; assumption).
    rewrite renumber_nth by exact Hjp. rewrite renumber_nth by exact Hjp. rewrite seq_nth by exact Hj.
    rewrite (zip_nth _ _ _ _ 0 zero) by (rewrite ?seq_length; lia). rewrite seq_nth by lia. apply Hg.
  Qed.
  (** A layer with renumbered inputs undoes the renumbering. *)
  Lemma call_inputs p n l vs : Permutation p (seq 0 n) -> well l -> in_features V l = Size n -> length vs = n ->
    call_linear (inputs V zero p l) (Vec V (renumber p vs zero)) = call_linear l (Vec V vs).
  Proof.
    intros Hp (Hw & Hr & Hb) Hi Hl. unfold Mlp_Model.call_linear. cbn [inputs in_features out_features weight bias]. rewrite Hi. cbn [bind matvec dim].
    rewrite renumber_length, (perm_length _ _ Hp), Hl, Nat.eqb_refl. cbn [bind].
    assert (E : map (fun row => dot row (renumber p vs zero)) (map (fun row => renumber p row zero) (weight V l)) = map (fun row => dot row vs) (weight V l)).
    { rewrite map_map. apply map_ext_in. intros row Hrow. apply (dot_renumber p n); [exact Hp| |exact Hl]. rewrite (Hr row Hrow), Hi. reflexivity. }
    rewrite E. reflexivity.
  Qed.

  Lemma loop_after (m m' : mlp V) k ls : (forall i j v, k < i -> act V m' i j v = act V m i j v) -> final V m' = final V m -> out_size V m' = out_size V m ->
    forall i x, k < i -> loop m' i ls x = loop m i ls x.
  Proof using. clear add_comm add_assoc.
    intros Ha Hf Ho. induction ls as [|l ls IH]; intros i x Hi; [reflexivity|].
    destruct ls as [|l2 ls].
    - cbn [Mlp_Model.loop]. rewrite Hf, Ho. reflexivity.
    - cbn [Mlp_Model.loop]. cbn [Mlp_Model.loop] in IH. destruct (call_linear l x) as [y|e]; [|reflexivity]. cbn [bind].
      assert (En : neurons V (act V m' i) y = neurons V (act V m i) y).
      { unfold neurons. destruct y as [v|vs]; [reflexivity|]. do 2 f_equal. generalize (seq 0 (length vs)). clear - Ha Hi. intros s. revert vs.
        induction s as [|j s IH]; intros [|v vs]; cbn [zip]; [reflexivity..|]. rewrite IH, (Ha i j v Hi). reflexivity. }
      rewrite En. destruct (neurons V (act V m i) y) as [z|e]; [|reflexivity]. cbn [bind]. apply IH. lia.
  Qed.
  Lemma neurons_ext (f g : nat -> V -> V) y : (forall j v, f j v = g j v) -> neurons V f y = neurons V g y.
  Proof using. clear add_comm add_assoc add mul.
    intros H. unfold neurons. destruct y as [v|vs]; [reflexivity|]. do 2 f_equal. generalize (seq 0 (length vs)). intros s. revert vs.
    induction s as [|j s IH]; intros [|v vs]; cbn [zip]; [reflexivity..|]. rewrite IH, H. reflexivity.
  Qed.
  Lemma zip_after (k : nat) p (ls : list (linear V)) : forall a, S k < a -> zip (unit_layer V zero k p) (seq a (length ls)) ls = ls.
  Proof using. clear add_comm add_assoc add mul.
    induction ls as [|l ls IH]; intros a Ha; [reflexivity|]. cbn [length seq zip]. rewrite IH by lia. f_equal. unfold unit_layer.
    destruct (Nat.eqb_spec a k); [lia|]. destruct (Nat.eqb_spec a (S k)); [lia|]. reflexivity.
  Qed.

  (** Renumbering the units of a hidden layer changes no result - values and errors alike, for inputs of any shape. *)
  Theorem C115_units : forall (m : mlp V) k p n x l l2,
    (forall l, In l (layers V m) -> well l) ->
    nth_error (layers V m) k = Some l -> out_features V l = Size n ->
    nth_error (layers V m) (S k) = Some l2 -> in_features V l2 = Size n ->
    Permutation p (seq 0 n) ->
    call_mlp V zero add mul (renumber_units V zero k p m) x = call_mlp V zero add mul m x.
  Proof.
    intros m k p n x l l2 Hwell Hl Ho Hl2 Hi Hp. unfold call_mlp. cbn [renumber_units renumber_weights layers].
    set (m' := renumber_units V zero k p m).
    enough (G : forall ls i x, (forall l, In l ls -> well l) -> i <= k -> nth_error ls (k - i) = Some l -> nth_error ls (S k - i) = Some l2 ->
              loop m' i (zip (unit_layer V zero k p) (seq i (length ls)) ls) x = loop m i ls x).
    { apply G; [exact Hwell|lia|rewrite Nat.sub_0_r; exact Hl|rewrite Nat.sub_0_r; exact Hl2]. }
    clear Hl Hl2 Hwell x. induction ls as [|c ls IH]; intros i x Hwell Hik Hl Hl2; [reflexivity|].
    destruct ls as [|d ls]; [destruct (S k - i) as [|j] eqn:E; [lia|]; cbn in Hl2; destruct j; discriminate|].
    destruct (Nat.eq_dec i k) as [->|Hne].
    - rewrite Nat.sub_diag in Hl. cbn in Hl. injection Hl as ->. replace (S k - k) with 1 in Hl2 by lia. cbn in Hl2. injection Hl2 as ->.
      cbn [length seq zip]. rewrite zip_after by lia.
      assert (E1 : unit_layer V zero k p k l = outputs V zero p l) by (unfold unit_layer; rewrite Nat.eqb_refl; reflexivity).
      assert (E2 : unit_layer V zero k p (S k) l2 = inputs V zero p l2).
      { unfold unit_layer. destruct (Nat.eqb_spec (S k) k); [lia|]. rewrite Nat.eqb_refl. reflexivity. }
      rewrite E1, E2.
      assert (Wl : well l) by (apply Hwell; left; reflexivity). assert (Wl2 : well l2) by (apply Hwell; right; left; reflexivity).
      destruct (call_outputs p n l x Hp Wl Ho) as [Ec Hv].
      change (loop m' k (outputs V zero p l :: inputs V zero p l2 :: ls) x) with
        (y <- call_linear (outputs V zero p l) x ;; z <- neurons V (act V m' k) y ;; loop m' (k + 1) (inputs V zero p l2 :: ls) z).
      change (loop m k (l :: l2 :: ls) x) with (y <- call_linear l x ;; z <- neurons V (act V m k) y ;; loop m (k + 1) (l2 :: ls) z).
      rewrite Ec. destruct (call_linear l x) as [y|e]; [|reflexivity]. destruct (Hv y eq_refl) as (vs & -> & Lvs). cbn [bind].
      destruct (neurons_renumber p n (act V m k) (act V m' k) vs Hp Lvs) as (zs & En & Lz & En').
      { intros j v. unfold m'. cbn [renumber_units renumber_weights act]. rewrite Nat.eqb_refl. reflexivity. }
      rewrite En, En'. cbn [bind].
      assert (Ha : forall i j v, k < i -> act V m' i j v = act V m i j v).
      { intros i j v Hki. unfold m'. cbn [renumber_units renumber_weights act]. destruct (Nat.eqb_spec i k); [lia|reflexivity]. }
      destruct ls as [|e ls].
      + cbn [Mlp_Model.loop]. rewrite (call_inputs p n l2 zs Hp Wl2 Hi Lz). reflexivity.
      + cbn [Mlp_Model.loop]. rewrite (call_inputs p n l2 zs Hp Wl2 Hi Lz). destruct (call_linear l2 (Vec V zs)) as [w|er]; [|reflexivity]. cbn [bind].
        rewrite (neurons_ext (act V m' (k + 1)) (act V m (k + 1)) w) by (intros; apply Ha; lia).
        destruct (neurons V (act V m (k + 1)) w) as [u|er]; [|reflexivity]. cbn [bind].
        change (loop m' (k + 1 + 1) (e :: ls) u = loop m (k + 1 + 1) (e :: ls) u). apply (loop_after m m' k); [exact Ha|reflexivity|reflexivity|lia].
    - cbn [length seq zip].
      assert (E1 : unit_layer V zero k p i c = c).
      { unfold unit_layer. destruct (Nat.eqb_spec i k); [contradiction|]. destruct (Nat.eqb_spec i (S k)); [lia|reflexivity]. }
      rewrite E1.
      change (loop m i (c :: d :: ls) x) with (y <- call_linear c x ;; z <- neurons V (act V m i) y ;; loop m (i + 1) (d :: ls) z).
      match goal with |- loop m' i (c :: ?a :: ?b) x = _ =>
        change (loop m' i (c :: a :: b) x) with (y <- call_linear c x ;; z <- neurons V (act V m' i) y ;; loop m' (i + 1) (a :: b) z) end.
      destruct (call_linear c x) as [y|e]; [|reflexivity]. cbn [bind].
      rewrite (neurons_ext (act V m' i) (act V m i) y).
      2:{ intros j v. unfold m'. cbn [renumber_units renumber_weights act]. destruct (Nat.eqb_spec i k); [contradiction|reflexivity]. }
      destruct (neurons V (act V m i) y) as [z|e]; [|reflexivity]. cbn [bind].
      specialize (IH (i + 1) z). replace (i + 1) with (S i) in * by lia. cbn [length seq zip] in IH. apply IH.
      + intros q Hq. apply Hwell. right. exact Hq.
      + lia.
      + replace (k - i) with (S (k - S i)) in Hl by lia. exact Hl.
      + replace (S k - i) with (S (S k - S i)) in Hl2 by lia. exact Hl2.
  Qed.
End Units.
Print Assumptions C115_units.

(** *** Heads *)
Lemma blocks_length d p : length (blocks d p) = length p * d.
Proof. unfold blocks. induction p as [|i p IH]; [reflexivity|]. cbn [map concat length Nat.mul]. rewrite app_length, seq_length, IH. reflexivity. Qed.
Lemma blocks_nth d p : forall i j, i < length p -> j < d -> nth (i * d + j) (blocks d p) 0 = nth i p 0 * d + j.
Proof.
  unfold blocks. induction p as [|a p IH]; intros i j Hi Hj; [cbn in Hi; lia|]. cbn [map concat]. destruct i as [|i].
  - cbn [Nat.mul Nat.add nth]. rewrite app_nth1 by (rewrite seq_length; exact Hj). apply seq_nth. exact Hj.
  - rewrite app_nth2 by (rewrite seq_length; cbn [Nat.mul]; lia). rewrite seq_length.
    replace (S i * d + j - d) with (i * d + j) by (cbn [Nat.mul]; lia). cbn [nth]. apply IH; [cbn in Hi; lia|exact Hj].
Qed.
Lemma blocks_bound d p n c : (forall i, In i p -> i < n) -> In c (blocks d p) -> c < n * d.
Proof.
  intros Hp Hc. unfold blocks in Hc. apply in_concat in Hc as (l & Hl & Hc). apply in_map_iff in Hl as (i & <- & Hi).
  apply in_seq in Hc. specialize (Hp i Hi). apply Nat.lt_le_trans with (i * d + d); [apply Hc|].
  replace (i * d + d) with (S i * d) by (cbn [Nat.mul]; lia). apply Nat.mul_le_mono_r. exact Hp.
Qed.
Lemma slot i n d j : i < n -> j < d -> i * d + j < n * d.
Proof. intros Hi Hj. apply Nat.lt_le_trans with (S i * d); [cbn [Nat.mul]; lia|apply Nat.mul_le_mono_r; exact Hi]. Qed.

Section Heads.
  Variables (V Key : Type) (zero : V) (add mul sub div vmax : V -> V -> V) (exp : V -> V) (sqrt : nat -> V) (fmin : V).
  Variable split : Key -> nat -> list Key.
  Variable dropout : option Key -> list (list V) -> res (list (list V)).
  Hypothesis add_comm : forall x y, add x y = add y x.
  Hypothesis add_assoc : forall x y z, add x (add y z) = add (add x y) z.
  Hypothesis add_0_l : forall x, add zero x = x.
  (** In inference mode, or with rate zero. *)
  Hypothesis no_dropout : forall key w, dropout key w = Ok w.
  Notation call := (call_mha V Key zero add mul sub div vmax exp sqrt fmin split dropout).
  Notation run := (run V zero add mul).
  Notation entry := (entry V zero).
  Notation rect := (rect V).
  Notation bigsum := (bigsum V zero add).

  Lemma layer_outputs P l i o : layer_ok V l i o -> length P = o -> (forall c, In c P -> c < o) -> layer_ok V (outputs V zero P l) i o.
  Proof using.
    intros (Hi & Ho & (Hn & Hr) & Hb) HP HPb. unfold layer_ok. cbn [outputs in_features out_features weight bias]. repeat split; auto.
    - rewrite renumber_length. exact HP.
    - intros r H. unfold renumber in H. apply in_map_iff in H as (c & <- & Hc). apply Hr, nth_In. rewrite Hn. apply HPb, Hc.
    - destruct (bias V l); [|exact I]. rewrite renumber_length. exact HP.
  Qed.
  Lemma layer_inputs P l i o : layer_ok V l i o -> length P = i -> layer_ok V (inputs V zero P l) i o.
  Proof using.
    intros (Hi & Ho & (Hn & Hr) & Hb) HP. unfold layer_ok. cbn [inputs in_features out_features weight bias]. repeat split; auto.
    - rewrite map_length. exact Hn.
    - intros r H. apply in_map_iff in H as (w & <- & Hw). rewrite renumber_length. exact HP.
  Qed.
  Lemma run_outputs P l i x s c : c < length P -> run (outputs V zero P l) i x s c = run l i x s (nth c P 0).
  Proof using.
    intros Hc. unfold Attention_Proofs.run, Attention_Spec.affine, bias_fn. cbn [outputs weight bias].
    assert (E : forall k, entry (renumber P (weight V l) []) c k = entry (weight V l) (nth c P 0) k).
    { intros k. unfold Attention_Proofs.entry. rewrite renumber_nth by exact Hc. reflexivity. }
    rewrite (bigsum_ext V zero add i (fun k => mul (entry (renumber P (weight V l) []) c k) (x s k)) (fun k => mul (entry (weight V l) (nth c P 0) k) (x s k)))
      by (intros k _; rewrite E; reflexivity).
    destruct (bias V l) as [b|]; [|reflexivity]. rewrite renumber_nth by exact Hc. reflexivity.
  Qed.

  (** Renumbering the heads - in all four projections, and in a mask that has one matrix for each head - changes no result. *)
  Theorem C115_heads : forall m query key_ value mask key p,
    mha_ok V m -> rect (length query) (query_size V m) query -> rect (length key_) (key_size V m) key_ ->
    rect (length key_) (value_size V m) value -> mask_ok mask (num_heads V m) (length query) (length key_) ->
    Permutation p (seq 0 (num_heads V m)) ->
    call (renumber_heads V zero p m) query key_ value (renumber_mask p mask) key None = call m query key_ value mask key None.
  Proof.
    intros m query key_ value mask key p Hm Rq Rk Rv HM Hp.
    set (m' := renumber_heads V zero p m).
    assert (Lp : length p = num_heads V m) by (apply perm_length, Hp).
    assert (Bp : forall i, In i p -> i < num_heads V m) by (intros i Hi; apply (perm_bound _ _ _ Hp Hi)).
    assert (Hm' : mha_ok V m').
    { destruct Hm as (Hh & Lq & Lk & Lv & Lo). unfold mha_ok, m'.
      cbn [renumber_heads query_proj key_proj value_proj output_proj num_heads query_size key_size value_size output_size qk_size vo_size].
      split; [exact Hh|].
      split; [apply layer_outputs; [exact Lq|rewrite blocks_length, Lp; reflexivity|intros c; apply blocks_bound, Bp]|].
      split; [apply layer_outputs; [exact Lk|rewrite blocks_length, Lp; reflexivity|intros c; apply blocks_bound, Bp]|].
      split; [apply layer_outputs; [exact Lv|rewrite blocks_length, Lp; reflexivity|intros c; apply blocks_bound, Bp]|].
      apply layer_inputs; [exact Lo|rewrite blocks_length, Lp; reflexivity]. }
    assert (HM' : mask_ok (renumber_mask p mask) (num_heads V m') (length query) (length key_)) by (destruct mask; exact HM).
    set (nkv := length key_) in *.
    set (q := fun m i s j => run (query_proj V m) (query_size V m) (entry query) s (i * qk_size V m + j)).
    set (k := fun m i s j => run (key_proj V m) (key_size V m) (entry key_) s (i * qk_size V m + j)).
    set (v := fun m i s j => run (value_proj V m) (value_size V m) (entry value) s (i * vo_size V m + j)).
    set (w := fun m mask i => soft V zero add sub div vmax exp nkv (masked V fmin (mask_fn mask i) (logit V zero add mul div sqrt (qk_size V m) (q m i) (k m i)))).
    pose proof (C69_formula V Key zero add mul sub div vmax exp sqrt fmin split (fun _ _ _ => []) (fun _ _ _ => []) dropout add_assoc add_0_l m query key_ value mask key
                  (w m mask) Hm Rq Rk Rv HM (fun i Hi => no_dropout _ _)) as F.
    pose proof (C69_formula V Key zero add mul sub div vmax exp sqrt fmin split (fun _ _ _ => []) (fun _ _ _ => []) dropout add_assoc add_0_l m' query key_ value (renumber_mask p mask) key
                  (w m' (renumber_mask p mask)) Hm' Rq Rk Rv HM' (fun i Hi => no_dropout _ _)) as F'.
    cbv zeta in F, F'. rewrite F, F'. clear F F'.
    change (output_size V m') with (output_size V m). change (num_heads V m') with (num_heads V m). change (vo_size V m') with (vo_size V m).
    fold nkv. f_equal. apply tab_ext. intros s o Hs Ho. unfold heads_sum.
    assert (Eb : bias_fn V zero (output_proj V m') = bias_fn V zero (output_proj V m)) by reflexivity. rewrite Eb.
    assert (Bn : forall i, i < num_heads V m -> nth i p 0 < num_heads V m).
    { intros i Hi. apply Bp, nth_In. rewrite Lp. exact Hi. }
    assert (Eq : forall i s j, i < num_heads V m -> j < qk_size V m -> q m' i s j = q m (nth i p 0) s j).
    { intros i s' j Hi Hj. unfold q, m'. cbn [renumber_heads query_proj query_size qk_size].
      assert (Hlen : i * qk_size V m + j < length (blocks (qk_size V m) p)).
      { rewrite blocks_length, Lp. apply slot; assumption. }
      rewrite run_outputs by exact Hlen. rewrite blocks_nth by (rewrite ?Lp; assumption). reflexivity. }
    assert (Ek : forall i s j, i < num_heads V m -> j < qk_size V m -> k m' i s j = k m (nth i p 0) s j).
    { intros i s' j Hi Hj. unfold k, m'. cbn [renumber_heads key_proj key_size qk_size].
      assert (Hlen : i * qk_size V m + j < length (blocks (qk_size V m) p)).
      { rewrite blocks_length, Lp. apply slot; assumption. }
      rewrite run_outputs by exact Hlen. rewrite blocks_nth by (rewrite ?Lp; assumption). reflexivity. }
    assert (Ev : forall i s j, i < num_heads V m -> j < vo_size V m -> v m' i s j = v m (nth i p 0) s j).
    { intros i s' j Hi Hj. unfold v, m'. cbn [renumber_heads value_proj value_size vo_size].
      assert (Hlen : i * vo_size V m + j < length (blocks (vo_size V m) p)).
      { rewrite blocks_length, Lp. apply slot; assumption. }
      rewrite run_outputs by exact Hlen. rewrite blocks_nth by (rewrite ?Lp; assumption). reflexivity. }
    assert (El : forall i s S, i < num_heads V m ->
              masked V fmin (mask_fn (renumber_mask p mask) i) (logit V zero add mul div sqrt (qk_size V m) (q m' i) (k m' i)) s S
              = masked V fmin (mask_fn mask (nth i p 0)) (logit V zero add mul div sqrt (qk_size V m) (q m (nth i p 0)) (k m (nth i p 0))) s S).
    { intros i s' S Hi.
      assert (Eg : logit V zero add mul div sqrt (qk_size V m) (q m' i) (k m' i) s' S
                   = logit V zero add mul div sqrt (qk_size V m) (q m (nth i p 0)) (k m (nth i p 0)) s' S).
      { unfold logit. apply bigsum_ext. intros j Hj. rewrite (Eq i s' j Hi Hj), (Ek i S j Hi Hj). reflexivity. }
      unfold masked. rewrite Eg. destruct mask; reflexivity. }
    assert (Ew : forall i S, i < num_heads V m -> w m' (renumber_mask p mask) i s S = w m mask (nth i p 0) s S).
    { intros i S Hi. unfold w, soft. change (qk_size V m') with (qk_size V m).
      assert (Emax : bigmax V vmax nkv (masked V fmin (mask_fn (renumber_mask p mask) i) (logit V zero add mul div sqrt (qk_size V m) (q m' i) (k m' i)) s)
                   = bigmax V vmax nkv (masked V fmin (mask_fn mask (nth i p 0)) (logit V zero add mul div sqrt (qk_size V m) (q m (nth i p 0)) (k m (nth i p 0))) s)).
      { unfold bigmax. rewrite (El i s 0 Hi). f_equal. apply map_ext. intros S'. apply El, Hi. }
      rewrite Emax, (El i s S Hi). f_equal. apply bigsum_ext. intros S' _. rewrite (El i s S' Hi). reflexivity. }
    set (G := fun i => bigsum (vo_size V m) (fun j => mul (entry (weight V (output_proj V m)) o (i * vo_size V m + j))
                         (attend V zero add mul nkv (w m mask i) (v m i) s j))).
    assert (Es : bigsum (num_heads V m) (fun i => bigsum (vo_size V m)
                   (fun j => mul (entry (weight V (output_proj V m')) o (i * vo_size V m + j))
                      (attend V zero add mul nkv (w m' (renumber_mask p mask) i) (v m' i) s j)))
               = bigsum (num_heads V m) G).
    { transitivity (bigsum (num_heads V m) (fun i => G (nth i p 0))).
      - apply bigsum_ext. intros i Hi. unfold G. apply bigsum_ext. intros j Hj. f_equal.
        + unfold m', Attention_Proofs.entry. cbn [renumber_heads output_proj inputs weight].
          assert (Hlen : i * vo_size V m + j < length (blocks (vo_size V m) p)).
          { rewrite blocks_length, Lp. apply slot; assumption. }
          destruct Hm as (_ & _ & _ & _ & (_ & _ & (Hlo & _) & _)).
          rewrite (nth_indep _ [] (renumber (blocks (vo_size V m) p) [] zero)) by (rewrite map_length, Hlo; exact Ho).
          rewrite (map_nth (fun row => renumber (blocks (vo_size V m) p) row zero)).
          rewrite renumber_nth by exact Hlen. rewrite blocks_nth by (rewrite ?Lp; assumption). reflexivity.
        + unfold attend. apply bigsum_ext. intros S _. rewrite (Ew i S Hi), (Ev i S j Hi Hj). reflexivity.
      - unfold Attention_Spec.bigsum. apply (sum_perm V zero add add_comm add_assoc).
        rewrite <- (map_map (fun i => nth i p 0) G). apply Permutation_map. rewrite <- Lp at 1. rewrite map_nth_seq. exact Hp. }
    destruct (bias_fn V zero (output_proj V m)) as [b|]; [|exact Es]. exact (f_equal (fun y => add y (b o)) Es).
  Qed.
End Heads.
Print Assumptions C115_heads.

(** *** Examples *)
Section Examples.
  Local Open Scope Z_scope.
  Definition s_lin (i o : nat) (w : list (list Z)) (b : list Z) : linear Z :=
    {| weight := w; bias := Some b; in_features := Size i; out_features := Size o; use_bias := true |}.
  (** Two hidden units, the first with a learnt factor 2, the second with 3. *)
  Definition s_mlp : mlp Z :=
    {| layers := [s_lin 1 2 [[1]; [5]] [0; 1]; s_lin 2 1 [[1; 10]] [7]]; act := fun _ j v => (2 + Z.of_nat j) * v; final := fun _ v => v;
       in_size := Size 1; out_size := Size 1; width := 2; depth := 1; m_bias := true; m_final_bias := true |}.
  Example C115_ex : call_mlp Z 0 Z.add Z.mul s_mlp (Vec Z [1]) = Ok (Vec Z [189]) /\
    call_mlp Z 0 Z.add Z.mul (renumber_units Z 0 0 [1; 0]%nat s_mlp) (Vec Z [1]) = Ok (Vec Z [189]) /\
    weight Z (nth 0 (layers Z (renumber_units Z 0 0 [1; 0]%nat s_mlp)) (s_lin 0 0 [] [])) = [[5]; [1]] /\
    (forall l, In l (layers Z s_mlp) -> Mlp_Props.well Z l) /\ Permutation [1; 0]%nat (seq 0 2).
  Proof.
    repeat split; try reflexivity.
    - destruct H as [<-|[<-|[]]]; reflexivity.
    - destruct H as [<-|[<-|[]]]; cbn; intros row [<-|H]; try reflexivity; destruct H as [<-|[]] || destruct H; reflexivity.
    - destruct H as [<-|[<-|[]]]; cbn; auto.
    - apply perm_swap.
  Qed.
  (** A unit has to take its learnt activation along: with the weights alone renumbered the result changes. *)
  Theorem C115_weights_alone_refuted : exists (m : mlp Z) k p n x l l2,
    (forall l, In l (layers Z m) -> Mlp_Props.well Z l) /\
    nth_error (layers Z m) k = Some l /\ out_features Z l = Size n /\
    nth_error (layers Z m) (S k) = Some l2 /\ in_features Z l2 = Size n /\
    Permutation p (seq 0 n) /\
    call_mlp Z 0 Z.add Z.mul (renumber_weights Z 0 k p m (act Z m)) x <> call_mlp Z 0 Z.add Z.mul m x.
  Proof.
    exists s_mlp, 0%nat, [1; 0]%nat, 2%nat, (Vec Z [1]), (s_lin 1 2 [[1]; [5]] [0; 1]), (s_lin 2 1 [[1; 10]] [7]).
    split; [apply C115_ex|]. repeat (split; [reflexivity|]). split; [apply perm_swap|]. vm_compute. discriminate.
  Qed.
  Definition h_lin (i o : nat) (w : list (list Z)) : linear Z :=
    {| weight := w; bias := None; in_features := Size i; out_features := Size o; use_bias := false |}.
  Definition h_mha : mha Z :=
    {| query_proj := h_lin 1 2 [[1]; [2]]; key_proj := h_lin 1 2 [[1]; [3]]; value_proj := h_lin 1 2 [[1]; [4]]; output_proj := h_lin 2 1 [[1; 10]];
       num_heads := 2; query_size := 1; key_size := 1; value_size := 1; output_size := 1; qk_size := 1; vo_size := 1 |}.
  (** Softmax replaced by something computable on integers: weights are logits. *)
  Definition h_call (m : mha Z) := call_mha Z nat 0 Z.add Z.mul (fun x _ => x) (fun x _ => x) Z.max (fun x => x) (fun _ => 1) 0
                         (fun k n => repeat k n) (fun _ w => Ok w) m.
  Example C115_ex_heads : h_call h_mha [[1]] [[1]; [2]] [[3]; [5]] (Mask3 2 1 2 (fun i _ S => Nat.leb S i)) None None = Ok [[3123]] /\
    h_call (renumber_heads Z 0 [1; 0]%nat h_mha) [[1]] [[1]; [2]] [[3]; [5]] (renumber_mask [1; 0]%nat (Mask3 2 1 2 (fun i _ S => Nat.leb S i))) None None = Ok [[3123]] /\
    h_call (renumber_heads Z 0 [1; 0]%nat h_mha) [[1]] [[1]; [2]] [[3]; [5]] (Mask3 2 1 2 (fun i _ S => Nat.leb S i)) None None <> Ok [[3123]].
  Proof. vm_compute. repeat split; try reflexivity. discriminate. Qed.
End Examples.
Print Assumptions C115_weights_alone_refuted.
