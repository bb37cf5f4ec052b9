(** Lemmas for [Attention_Props]. *)
From Verif Require Export Attention_Model Attention_Spec.
From Coq Require Import Lia.
Local Open Scope nat_scope.
Local Open Scope list_scope.

Lemma mapM_ok_map {A B} (f : A -> res B) (g : A -> B) l :
  (forall x, In x l -> f x = Ok (g x)) -> mapM f l = Ok (map g l).
Proof.
  induction l as [|x l IH]; intros H; [reflexivity|].
  cbn [mapM map]. rewrite (H x (or_introl eq_refl)). cbn [bind].
  rewrite IH by (intros y Hy; apply H; right; exact Hy). reflexivity.
Qed.
Lemma mapM_map_ok {A B C} (f : B -> res C) (r : A -> B) (g : A -> C) l :
  (forall x, In x l -> f (r x) = Ok (g x)) -> mapM f (map r l) = Ok (map g l).
Proof.
  induction l as [|x l IH]; intros H; [reflexivity|].
  cbn [mapM map]. rewrite (H x (or_introl eq_refl)). cbn [bind].
  rewrite IH by (intros y Hy; apply H; right; exact Hy). reflexivity.
Qed.
Lemma map_seq_ext {B} (f g : nat -> B) n a : (forall i, a <= i < a + n -> f i = g i) -> map f (seq a n) = map g (seq a n).
Proof. intros H. apply map_ext_in. intros i Hi. apply in_seq in Hi. apply H. lia. Qed.
Lemma map_nth_seq {B} (l : list B) d : map (fun i => nth i l d) (seq 0 (length l)) = l.
Proof.
  induction l as [|x l IH]; [reflexivity|]. cbn [length seq map nth]. f_equal.
  rewrite <- seq_shift, map_map. exact IH.
Qed.
Lemma nth_map_seq {B} (f : nat -> B) n i d : i < n -> nth i (map f (seq 0 n)) d = f i.
Proof.
  intros H. rewrite nth_indep with (d' := f 0) by (rewrite map_length, seq_length; exact H).
  rewrite map_nth, seq_nth by exact H. reflexivity.
Qed.

Section Lemmas.
  Variables (V Key : Type) (zero : V) (add mul sub div vmax : V -> V -> V) (exp : V -> V) (sqrt : nat -> V) (fmin : V).
  Notation mat := (list (list V)).
  Local Ltac slia :=
    try match goal with h : forall x y z : V, _ |- _ => clear h end; try match goal with h : forall x : V, _ = x |- _ => clear h end;
    try clear exp; try clear sqrt; try clear fmin; try clear sub; try clear div; try clear vmax; try clear mul; try clear add; lia.
  Notation dot := (dot V zero add mul).
  Notation bigsum := (bigsum V zero add).
  Notation tab := (tab V).
  Notation tab3 := (tab3 V).

  Lemma dot_maps {I} (f g : I -> V) l : dot (map f l) (map g l) = fold_right add zero (map (fun i => mul (f i) (g i)) l).
  Proof. induction l as [|i l IH]; [reflexivity|]. cbn [map Mlp_Model.dot fold_right]. rewrite IH. reflexivity. Qed.
  Lemma bigsum_ext n f g : (forall i, i < n -> f i = g i) -> bigsum n f = bigsum n g.
  Proof. intros H. unfold Attention_Spec.bigsum. f_equal. apply map_seq_ext. intros i Hi. apply H. slia. Qed.
  Lemma sum_fold l : sum V zero add l = fold_right add zero l.
  Proof. induction l as [|x l IH]; [reflexivity|]. cbn [sum fold_right]. rewrite IH. reflexivity. Qed.

  Lemma tab_length n m f : length (tab n m f) = n.
  Proof. unfold Attention_Spec.tab. rewrite map_length, seq_length. reflexivity. Qed.
  Lemma tab_row n m f s : s < n -> nth s (tab n m f) [] = map (f s) (seq 0 m).
  Proof. intros H. unfold Attention_Spec.tab. apply nth_map_seq with (f := fun s => map (f s) (seq 0 m)). exact H. Qed.
  Lemma tab_nth n m f s j : s < n -> j < m -> nth j (nth s (tab n m f) []) zero = f s j.
  Proof. intros Hs Hj. rewrite tab_row by exact Hs. apply nth_map_seq. exact Hj. Qed.
  Lemma tab_ext n m f g : (forall s j, s < n -> j < m -> f s j = g s j) -> tab n m f = tab n m g.
  Proof.
    intros H. unfold Attention_Spec.tab. apply map_seq_ext. intros s Hs. apply map_seq_ext. intros j Hj. apply H; slia.
  Qed.
  (** A matrix is the table of its entries. *)
  Definition rect (n m : nat) (a : mat) : Prop := length a = n /\ forall r, In r a -> length r = m.
  Definition entry (a : mat) (s j : nat) : V := nth j (nth s a []) zero.
  Lemma rect_tab n m a : rect n m a -> a = tab n m (entry a).
  Proof.
    intros [Hn Hm]. unfold Attention_Spec.tab, entry.
    rewrite <- (map_nth_seq a []) at 1. rewrite Hn. apply map_seq_ext. intros s Hs.
    rewrite <- (Hm (nth s a [])) by (apply nth_In; slia). symmetry. apply map_nth_seq.
  Qed.
  Lemma tab_rect n m f : rect n m (tab n m f).
  Proof.
    split; [apply tab_length|]. intros r Hr. unfold Attention_Spec.tab in Hr. apply in_map_iff in Hr as (s & <- & _).
    rewrite map_length, seq_length. reflexivity.
  Qed.

  (** ** Layers *)
  Definition layer_ok (l : linear V) (i o : nat) : Prop :=
    in_features V l = Size i /\ out_features V l = Size o /\ rect o i (weight V l) /\
    match bias V l with Some b => length b = o | None => True end.
  Definition bias_fn (l : linear V) : option (nat -> V) :=
    match bias V l with Some b => Some (fun c => nth c b zero) | None => None end.
  Definition run (l : linear V) (i : nat) (x : nat -> nat -> V) : nat -> nat -> V :=
    affine V zero add mul i (entry (weight V l)) (bias_fn l) x.

  Lemma zip_maps {I} (f g : I -> V) l : zip add (map f l) (map g l) = map (fun i => add (f i) (g i)) l.
  Proof. induction l as [|i l IH]; [reflexivity|]. cbn [map zip]. rewrite IH. reflexivity. Qed.

  Lemma through_tab l i o n x : layer_ok l i o -> through V zero add mul l (tab n i x) = Ok (tab n o (run l i x)).
  Proof.
    intros (Hi & Ho & Hw & Hb). unfold through, Attention_Spec.tab.
    apply mapM_map_ok. intros s _. unfold call_linear. rewrite Hi. cbn [bind].
    unfold matvec. cbn [dim]. rewrite map_length, seq_length, Nat.eqb_refl. cbn [bind]. rewrite Ho. cbn [bind].
    rewrite (rect_tab _ _ _ Hw). unfold Attention_Spec.tab. rewrite map_map.
    assert (E : map (fun c => dot (map (entry (weight V l) c) (seq 0 i)) (map (x s) (seq 0 i))) (seq 0 o)
                = map (fun c => bigsum i (fun k => mul (entry (weight V l) c k) (x s k))) (seq 0 o)).
    { apply map_ext. intros c. apply dot_maps. }
    rewrite E.
    change (Ok (match bias V l with
                | Some b => zip add (map (fun c => bigsum i (fun k => mul (entry (weight V l) c k) (x s k))) (seq 0 o)) b
                | None => map (fun c => bigsum i (fun k => mul (entry (weight V l) c k) (x s k))) (seq 0 o)
                end) = Ok (map (run l i x s) (seq 0 o))).
    f_equal. unfold run, affine, bias_fn. destruct (bias V l) as [b|]; [|reflexivity].
    rewrite <- (map_nth_seq b zero) at 1. rewrite Hb. apply zip_maps.
  Qed.
  Lemma through_bad l i o x row : layer_ok l i o -> hd_error x = Some row -> length row <> i ->
    through V zero add mul l x = Err TypeError.
  Proof.
    intros (Hi & _) Hx Hl. destruct x as [|r x]; [discriminate|]. cbn in Hx. injection Hx as ->.
    unfold through. cbn [mapM]. unfold call_linear. rewrite Hi. cbn [bind]. unfold matvec. cbn [dim].
    apply Nat.eqb_neq in Hl. rewrite Nat.eqb_sym, Hl. reflexivity.
  Qed.

  (** ** Heads *)
  Lemma chunks_seq (f : nat -> V) h d a :
    chunks V h d (map f (seq a (h * d))) = map (fun i => map (fun j => f (a + i * d + j)) (seq 0 d)) (seq 0 h).
  Proof.
    revert a. induction h as [|h IH]; intros a; [reflexivity|].
    cbn [chunks Nat.mul]. rewrite seq_app, map_app.
    rewrite firstn_app, skipn_app. rewrite map_length, seq_length, Nat.sub_diag. cbn [firstn skipn].
    rewrite firstn_all2 by (rewrite map_length, seq_length; slia).
    rewrite skipn_all2 by (rewrite map_length, seq_length; slia).
    rewrite app_nil_r. cbn [app]. rewrite IH. cbn [seq map]. f_equal.
    - replace (seq a d) with (map (fun j => a + j) (seq 0 d)).
      + rewrite map_map. apply map_ext. intros j. f_equal. slia.
      + clear. revert a. induction d as [|d IH]; intros a; [reflexivity|]. cbn [seq map]. f_equal; [slia|].
        rewrite <- seq_shift, map_map, <- (IH (S a)). apply map_ext. intros j. slia.
    - rewrite <- seq_shift, map_map. apply map_ext. intros i. apply map_ext. intros j. f_equal. slia.
  Qed.
  Lemma seq_chunks (f : nat -> V) h d a :
    map f (seq a (h * d)) = concat (map (fun i => map (fun j => f (a + i * d + j)) (seq 0 d)) (seq 0 h)).
  Proof.
    revert a. induction h as [|h IH]; intros a; [reflexivity|].
    cbn [Nat.mul]. rewrite seq_app, map_app. cbn [seq map concat]. f_equal.
    - replace (seq a d) with (map (fun j => a + j) (seq 0 d)).
      + rewrite map_map. apply map_ext. intros j. f_equal. slia.
      + clear. revert a. induction d as [|d IH]; intros a; [reflexivity|]. cbn [seq map]. f_equal; [slia|].
        rewrite <- seq_shift, map_map, <- (IH (S a)). apply map_ext. intros j. slia.
    - rewrite IH. rewrite <- seq_shift, map_map. f_equal. apply map_ext. intros i. apply map_ext. intros j. f_equal. slia.
  Qed.

  Lemma project_tab h d l i n x : h <> 0 -> layer_ok l i (h * d) ->
    project V zero add mul h l (tab n i x) = Ok (tab3 n h d (fun s k j => run l i x s (k * d + j))).
  Proof.
    intros Hh Hl. unfold project. rewrite (through_tab _ _ _ _ _ Hl). cbn [bind].
    unfold Attention_Spec.tab, Attention_Spec.tab3. apply mapM_map_ok. intros s _.
    destruct (Nat.eqb_spec h 0) as [E|_]; [contradiction|].
    rewrite map_length, seq_length.
    rewrite (Nat.mul_comm h d), Nat.mod_mul, Nat.div_mul by exact Hh. rewrite Nat.eqb_refl.
    rewrite (Nat.mul_comm d h), chunks_seq. reflexivity.
  Qed.
  Definition entry3 (a : list mat) (s i j : nat) : V := nth j (nth i (nth s a []) []) zero.
  Lemma has_shape_tab3 n h d a : has_shape V n h d a = true -> a = tab3 n h d (entry3 a).
  Proof.
    unfold has_shape. intros H. apply andb_true_iff in H as [Hn Hf]. apply Nat.eqb_eq in Hn.
    unfold Attention_Spec.tab3, entry3.
    rewrite <- (map_nth_seq a []) at 1. rewrite Hn. apply map_seq_ext. intros s Hs.
    assert (Hs' : s < length a) by slia.
    rewrite forallb_forall in Hf. specialize (Hf (nth s a []) (nth_In a [] Hs')).
    apply andb_true_iff in Hf as [Hh Hd]. apply Nat.eqb_eq in Hh.
    assert (R : rect h d (nth s a [])).
    { split; [exact Hh|]. intros r Hr. rewrite forallb_forall in Hd. apply Nat.eqb_eq. exact (Hd r Hr). }
    exact (rect_tab _ _ _ R).
  Qed.
  Lemma head_tab3 n h d f i : i < h -> head V i (tab3 n h d f) = tab n d (fun s => f s i).
  Proof.
    intros Hi. unfold head, Attention_Spec.tab3, Attention_Spec.tab. rewrite map_map. apply map_ext. intros s.
    apply nth_map_seq with (f := fun i => map (f s i) (seq 0 d)). exact Hi.
  Qed.

  (** ** One head *)
  Notation logit := (logit V zero add mul div sqrt).
  Notation masked := (masked V fmin).
  Notation soft := (soft V zero add sub div vmax exp).
  Notation attend := (attend V zero add mul).
  Definition entries (m : option (nat * nat * (nat -> nat -> bool))) : option (nat -> nat -> bool) :=
    option_map snd m.

  Lemma logits_tab nq nkv d q k :
    logits V zero add mul div sqrt (tab nq d q) (tab nkv d k) = tab nq nkv (logit d q k).
  Proof.
    unfold logits, Attention_Spec.tab. rewrite map_map. apply map_ext. intros s. rewrite map_length, seq_length.
    rewrite !map_map. apply map_ext. intros S. apply dot_maps.
  Qed.
  Lemma apply_mask_tab nq nkv mask l :
    match mask with Some (r, c, _) => r = nq /\ c = nkv | None => True end ->
    apply_mask V zero fmin nq nkv mask (tab nq nkv l) = Ok (tab nq nkv (masked (entries mask) l)).
  Proof.
    unfold apply_mask. destruct mask as [[[r c] m]|]; [|reflexivity].
    intros [-> ->]. rewrite !Nat.eqb_refl. cbn [andb]. f_equal. apply tab_ext. intros s S Hs HS.
    rewrite tab_nth by assumption. reflexivity.
  Qed.
  Lemma softmax_tab n f : softmax V zero add sub div vmax exp (map f (seq 0 n)) = map (soft n (fun _ => f) 0) (seq 0 n).
  Proof.
    destruct n as [|n]; [reflexivity|].
    change (softmax V zero add sub div vmax exp (map f (seq 0 (S n))))
      with (let m := fold_left vmax (map f (seq 1 n)) (f 0) in
            let es := map (fun y => exp (sub y m)) (map f (seq 0 (S n))) in
            map (fun e => div e (sum V zero add es)) es).
    cbv zeta. rewrite !map_map. unfold Attention_Spec.soft, Attention_Spec.bigmax. replace (S n - 1) with n by slia.
    apply map_ext. intros S. rewrite sum_fold. reflexivity.
  Qed.
  Lemma softmax_mat nq nkv l :
    map (softmax V zero add sub div vmax exp) (tab nq nkv l) = tab nq nkv (soft nkv l).
  Proof.
    unfold Attention_Spec.tab. rewrite map_map. apply map_ext. intros s. rewrite softmax_tab. reflexivity.
  Qed.
  Lemma weights_tab nq nkv d q k mask :
    match mask with Some (r, c, _) => r = nq /\ c = nkv | None => True end ->
    attention_weights V zero add mul sub div vmax exp sqrt fmin (tab nq d q) (tab nkv d k) mask
    = Ok (tab nq nkv (soft nkv (masked (entries mask) (logit d q k)))).
  Proof.
    intros Hm. unfold attention_weights. rewrite !tab_length, logits_tab, (apply_mask_tab _ _ _ _ Hm). cbn [bind].
    rewrite softmax_mat. reflexivity.
  Qed.
  Lemma weighted_tab nq nkv dv w v :
    map (fun wr => map (fun d => dot wr (map (fun r => nth d r zero) (tab nkv dv v))) (seq 0 dv)) (tab nq nkv w)
    = tab nq dv (attend nkv w v).
  Proof.
    unfold Attention_Spec.tab. rewrite map_map. apply map_ext. intros s. apply map_seq_ext. intros j Hj.
    rewrite map_map. rewrite (map_ext (fun S => nth j (map (v S) (seq 0 dv)) zero) (fun S => v S j))
      by (intros S; apply nth_map_seq; slia).
    apply dot_maps.
  Qed.

  (** ** The output projection *)
  Hypothesis add_assoc : forall x y z, add x (add y z) = add (add x y) z.
  Hypothesis add_0_l : forall x, add zero x = x.

  Lemma fold_app l m : fold_right add zero (l ++ m) = add (fold_right add zero l) (fold_right add zero m).
  Proof.
    induction l as [|x l IH]; [cbn; rewrite add_0_l; reflexivity|]. cbn [app fold_right]. rewrite IH, add_assoc. reflexivity.
  Qed.
  Lemma bigsum_chunks (f : nat -> V) h d :
    bigsum (h * d) f = bigsum h (fun i => bigsum d (fun j => f (i * d + j))).
  Proof.
    unfold Attention_Spec.bigsum. rewrite seq_chunks. cbn [Nat.add].
    induction (seq 0 h) as [|i l IH]; [reflexivity|]. cbn [map concat fold_right]. rewrite fold_app, IH. reflexivity.
  Qed.
  Lemma run_heads l h dv n (a : nat -> nat -> nat -> V) s o : s < n ->
    (forall c, run l (h * dv) (fun s c => a (c / dv) s (c mod dv)) s c
               = match bias_fn l with
                 | Some b => add (bigsum (h * dv) (fun k => mul (entry (weight V l) c k) (a (k / dv) s (k mod dv)))) (b c)
                 | None => bigsum (h * dv) (fun k => mul (entry (weight V l) c k) (a (k / dv) s (k mod dv)))
                 end) /\
    run l (h * dv) (fun s c => a (c / dv) s (c mod dv)) s o
    = heads_sum V zero add mul h dv (entry (weight V l)) (bias_fn l) a s o.
  Proof.
    intros _. split; [intros c; reflexivity|].
    unfold run, affine, heads_sum.
    assert (E : bigsum (h * dv) (fun k => mul (entry (weight V l) o k) (a (k / dv) s (k mod dv)))
                = bigsum h (fun i => bigsum dv (fun j => mul (entry (weight V l) o (i * dv + j)) (a i s j)))).
    { rewrite bigsum_chunks. apply bigsum_ext. intros i Hi. apply bigsum_ext. intros j Hj.
      assert (dv <> 0) by slia.
      rewrite (Nat.add_comm (i * dv) j), Nat.div_add, Nat.mod_add, Nat.div_small, Nat.mod_small by slia. reflexivity. }
    destruct (bias_fn l) as [b|]; rewrite E; reflexivity.
  Qed.
  Lemma concat_heads nq dv h (a : nat -> nat -> nat -> V) s : s < nq ->
    concat (map (fun t => nth s t []) (map (fun i => tab nq dv (a i)) (seq 0 h)))
    = map (fun c => a (c / dv) s (c mod dv)) (seq 0 (h * dv)).
  Proof.
    intros Hs. rewrite seq_chunks. rewrite map_map. f_equal. apply map_seq_ext. intros i Hi.
    rewrite tab_row by exact Hs. apply map_seq_ext. intros j Hj. cbn [Nat.add].
    rewrite (Nat.add_comm (i * dv) j), Nat.div_add, Nat.mod_add, Nat.div_small, Nat.mod_small by slia. reflexivity.
  Qed.
  Lemma output_tab l h dv no nq (a : nat -> nat -> nat -> V) : layer_ok l (h * dv) no ->
    through V zero add mul l
      (map (fun s => concat (map (fun t => nth s t []) (map (fun i => tab nq dv (a i)) (seq 0 h)))) (seq 0 nq))
    = Ok (tab nq no (heads_sum V zero add mul h dv (entry (weight V l)) (bias_fn l) a)).
  Proof.
    intros Hl.
    rewrite (map_seq_ext _ (fun s => map (fun c => a (c / dv) s (c mod dv)) (seq 0 (h * dv))))
      by (intros s Hs; apply concat_heads; slia).
    change (map (fun s => map (fun c => a (c / dv) s (c mod dv)) (seq 0 (h * dv))) (seq 0 nq))
      with (tab nq (h * dv) (fun s c => a (c / dv) s (c mod dv))).
    rewrite (through_tab _ _ _ _ _ Hl). f_equal. apply tab_ext. intros s o Hs Ho.
    exact (proj2 (run_heads l h dv nq a s o Hs)).
  Qed.
End Lemmas.
