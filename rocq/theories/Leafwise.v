(** Trees obtained leaf by leaf from another tree, and what the library's functions do to them. *)
From Verif Require Import Filters_Proofs.
From Verif Require Export Prim_Model Prim_Spec Prim_Proofs Tree_Facts.

(** Replace each leaf [a] by [f a]. *)
Fixpoint lw {A B} (f : A -> tree B) (t : tree A) : tree B :=
  match t with
  | Leaf a => f a
  | TNone => TNone
  | Node k cs => Node k (map (lw f) cs)
  end.
(** The leaves of a tree, left to right. *)
Fixpoint labels {A} (t : tree A) : list A :=
  match t with
  | Leaf a => [a]
  | TNone => []
  | Node _ cs => concat (map labels cs)
  end.
(** A leaf or [None]. *)
Definition small {A} (t : tree A) : Prop := match t with Node _ _ => False | _ => True end.

Section Lw.
  Context {A : Type}.
  Implicit Types t : tree A.

  Lemma lw_id t : lw Leaf t = t.
  Proof.
    induction t as [a| |k cs IH] using tree_ind'; simpl; auto. f_equal.
    induction IH as [|c cs Hc _ IHcs]; simpl; [reflexivity|]. rewrite Hc, IHcs. reflexivity.
  Qed.
  Lemma lw_ext_in {B} (f g : A -> tree B) t :
    (forall a, In a (labels t) -> f a = g a) -> lw f t = lw g t.
  Proof.
    induction t as [a| |k cs IH] using tree_ind'; simpl; intros H; auto. f_equal.
    induction IH as [|c cs Hc _ IHcs]; simpl in *; [reflexivity|]. rewrite Hc, IHcs; auto;
      intros; apply H; apply in_or_app; auto.
  Qed.
  Lemma lw_ext {B} (f g : A -> tree B) t : (forall a, f a = g a) -> lw f t = lw g t.
  Proof. intros H. apply lw_ext_in. auto. Qed.
  Lemma lw_lw {B C} (f : A -> tree B) (g : B -> tree C) t : lw g (lw f t) = lw (fun a => lw g (f a)) t.
  Proof.
    induction t as [a| |k cs IH] using tree_ind'; simpl; auto. f_equal. rewrite map_map.
    induction IH as [|c cs Hc _ IHcs]; simpl; [reflexivity|]. rewrite Hc, IHcs. reflexivity.
  Qed.
  Lemma tmap_lw {B} (f : tree A -> tree B) t : tmap no_leaf f t = lw (fun a => f (Leaf a)) t.
  Proof.
    induction t as [a| |k cs IH] using tree_ind'; simpl; auto. f_equal.
    induction IH as [|c cs Hc _ IHcs]; simpl; [reflexivity|]. rewrite Hc, IHcs. reflexivity.
  Qed.
  Lemma leaves_labels t : leaves no_leaf t = map Leaf (labels t).
  Proof.
    induction t as [a| |k cs IH] using tree_ind'; simpl; auto.
    induction IH as [|c cs Hc _ IHcs]; simpl; [reflexivity|]. rewrite Hc, IHcs, map_app. reflexivity.
  Qed.
  Lemma labels_lw {B} (f : A -> tree B) t : labels (lw f t) = flat_map (fun a => labels (f a)) (labels t).
  Proof.
    induction t as [a| |k cs IH] using tree_ind'; simpl; auto.
    - rewrite app_nil_r. reflexivity.
    - rewrite map_map. induction IH as [|c cs Hc _ IHcs]; simpl; [reflexivity|].
      rewrite Hc, IHcs, flat_map_app. reflexivity.
  Qed.
  Lemma treedef_lw {B C} (f : A -> tree B) (g : A -> tree C) isl isl' t :
    (forall k cs, isl (Node k cs) = false) -> (forall k cs, isl' (Node k cs) = false) ->
    isl TNone = isl' TNone ->
    (forall a, In a (labels t) -> treedef isl (f a) = treedef isl' (g a)) ->
    treedef isl (lw f t) = treedef isl' (lw g t).
  Proof.
    intros H1 H2 H3. induction t as [a| |k cs IH] using tree_ind'; simpl; intros H; auto.
    - rewrite H3. reflexivity.
    - rewrite H1, H2. f_equal. induction IH as [|c cs Hc _ IHcs]; simpl in *; [reflexivity|].
      rewrite Hc, IHcs; auto; intros; apply H; apply in_or_app; auto.
  Qed.

  Lemma treedef_lw_inv {B C} (f : A -> tree B) (g : A -> tree C) t :
    treedef no_leaf (lw f t) = treedef no_leaf (lw g t) ->
    forall a, In a (labels t) -> treedef no_leaf (f a) = treedef no_leaf (g a).
  Proof.
    induction t as [a| |k cs IH] using tree_ind'; simpl; intros H b Hb.
    - destruct Hb as [<-|[]]. exact H.
    - contradiction.
    - injection H as H. induction IH as [|c cs Hc _ IHcs]; simpl in *; [contradiction|].
      injection H as H1 H2. apply in_app_or in Hb as [Hb|Hb]; auto.
  Qed.

  (** ** [partition] by a predicate on leaves *)
  Lemma partition_lw (g : A -> bool) t :
    eqx_partition no_leaf TNone t (Leaf (SCall (on_leaf g))) =
    Ok (lw (fun a => if g a then Leaf a else TNone) t, lw (fun a => if g a then TNone else Leaf a) t).
  Proof. rewrite partition_pred. unfold dynp, stap. rewrite !tmap_lw. reflexivity. Qed.

  (** ** [combine] *)
  Lemma kids_lw {B} k n (cs : list (tree A)) (fs : list (A -> tree B)) : n = length cs ->
    kids k n (map (fun f => Node k (map (lw f) cs)) fs) = Ok (map (fun f => map (lw f) cs) fs).
  Proof.
    intros ->. induction fs as [|f fs IH]; simpl; [reflexivity|].
    rewrite Nat.eqb_refl, map_length, Nat.eqb_refl. simpl. rewrite IH. reflexivity.
  Qed.
  Lemma column_lw {B} i (cs : list (tree A)) c (fs : list (A -> tree B)) : nth_error cs i = Some c ->
    column i (map (fun f => map (lw f) cs) fs) = map (fun f => lw f c) fs.
  Proof.
    intros H. induction fs as [|f fs IH]; simpl; [reflexivity|].
    rewrite nth_error_map, H. simpl. rewrite IH. reflexivity.
  Qed.
  Lemma nones_map {B C} (fs : list C) : nones (map (fun _ => @TNone B) fs) = true.
  Proof. induction fs; auto. Qed.
  Lemma combine_lw {B} (f0 : A -> tree B) (fs : list (A -> tree B)) t :
    (forall a, small (f0 a)) ->
    eqx_combine no_leaf (lw f0 t :: map (fun f => lw f t) fs) =
    Ok (lw (fun a => combine_args (f0 a :: map (fun f => f a) fs)) t).
  Proof.
    intros Hs. unfold eqx_combine. induction t as [a| |k cs IH] using tree_ind'; cbn [lw].
    - specialize (Hs a). destruct (f0 a) as [b| |k cs]; [reflexivity|reflexivity|contradiction].
    - simpl. f_equal. clear. induction fs; simpl; auto.
    - cbn [tmapn is_none no_leaf orb]. rewrite map_length. rewrite kids_lw by reflexivity. cbn [bind].
      match goal with |- rmap _ ?x = _ => enough (E : x = Ok (map (lw (fun a => combine_args (f0 a :: map (fun f => f a) fs))) cs)) by (rewrite E; reflexivity) end.
      assert (G : forall pre rest, cs = pre ++ rest ->
        mapMi (fun i c => tmapn (fun x => is_none x || no_leaf x) (fun x xs => Ok (combine_args (x :: xs))) c
                 (column i (map (fun f => map (lw f) cs) fs))) (length pre) (map (lw f0) rest)
        = Ok (map (lw (fun a => combine_args (f0 a :: map (fun f => f a) fs))) rest)).
      2: { exact (G [] cs eq_refl). }
      intros pre rest; revert pre; induction rest as [|c rest IHr]; intros pre E; [reflexivity|].
      cbn [map mapMi]. rewrite (column_lw (length pre) cs c) by (rewrite E, nth_error_app2, Nat.sub_diag by lia; reflexivity).
      assert (Hc : In c cs) by (rewrite E; apply in_or_app; right; left; reflexivity).
      rewrite Forall_forall in IH. rewrite (IH c Hc). cbn [bind].
      specialize (IHr (pre ++ [c])). rewrite app_length in IHr. cbn [length] in IHr.
      replace (length pre + 1) with (S (length pre)) in IHr by lia.
      rewrite IHr by (rewrite <- app_assoc; exact E). reflexivity.
  Qed.

  (** ** [tree_map] over two trees *)
  Lemma tmap2_lw {B C D} (F : tree B -> tree C -> res (tree D)) (f : A -> tree B) (g : A -> tree C) (h : A -> tree D) t :
    (forall a, In a (labels t) ->
       match f a with Leaf _ => F (f a) (g a) = Ok (h a) | TNone => g a = TNone /\ h a = TNone | Node _ _ => False end) ->
    tmap2 no_leaf F (lw f t) (lw g t) = Ok (lw h t).
  Proof.
    induction t as [a| |k cs IH] using tree_ind'; intros H; cbn [lw].
    - specialize (H a (or_introl eq_refl)). destruct (f a) as [b| |]; simpl; [exact H| |contradiction].
      destruct H as [-> ->]. reflexivity.
    - reflexivity.
    - cbn [tmap2 no_leaf]. rewrite Nat.eqb_refl.
      match goal with |- rmap _ ?x = _ => enough (E : x = Ok (map (lw h) cs)) by (rewrite E; reflexivity) end.
      cbn [labels] in H. induction IH as [|c cs Hc _ IHcs]; simpl in *; [reflexivity|].
      rewrite Hc by (intros; apply H; apply in_or_app; auto). simpl.
      rewrite IHcs by (intros; apply H; apply in_or_app; auto). reflexivity.
  Qed.
  Lemma tmap2_lw_none {B C D} (F : tree B -> tree C -> res (tree D)) (f : A -> tree B) (g : A -> tree C) (h : A -> tree D) t :
    F TNone TNone = Ok TNone ->
    (forall a, In a (labels t) -> small (f a) /\ F (f a) (g a) = Ok (h a)) ->
    tmap2 is_none F (lw f t) (lw g t) = Ok (lw h t).
  Proof.
    intros F0. induction t as [a| |k cs IH] using tree_ind'; intros H; cbn [lw].
    - specialize (H a (or_introl eq_refl)). destruct H as [Hs H]. destruct (f a) as [b| |]; simpl; [exact H|exact H|contradiction].
    - exact F0.
    - cbn [tmap2 is_none]. rewrite Nat.eqb_refl.
      match goal with |- rmap _ ?x = _ => enough (E : x = Ok (map (lw h) cs)) by (rewrite E; reflexivity) end.
      cbn [labels] in H. induction IH as [|c cs Hc _ IHcs]; simpl in *; [reflexivity|].
      rewrite Hc by (intros; apply H; apply in_or_app; auto). simpl.
      rewrite IHcs by (intros; apply H; apply in_or_app; auto). reflexivity.
  Qed.
End Lw.
