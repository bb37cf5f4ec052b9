(** Lemmas about filter_vmap. *)
From Verif Require Export Vmap_Spec Tree_Facts Filters_Proofs.
Local Open Scope nat_scope.

Section Zipw.
  Context {A B C : Type}.
  Variable f : A -> B -> C.
  Fixpoint zipw (l : list A) (r : list B) : list C :=
    match l, r with x :: l', y :: r' => f x y :: zipw l' r' | _, _ => [] end.
End Zipw.

(** ** Axis resolution *)
Section Axes.
  Context {X : Type}.
  Implicit Types (t : tree (gleaf X)) (a : tree (axis_spec X)) (ax : tree Z).
  Inductive axes_at : tree (gleaf X) -> tree Z -> Prop :=
  | AX_map l z : axes_at (Leaf l) (Leaf z)
  | AX_keep l : axes_at (Leaf l) TNone
  | AX_none : axes_at TNone TNone
  | AX_node k cs xs : Forall2 axes_at cs xs -> axes_at (Node k cs) (Node k xs).
  Lemma leafwise_tmap g t ax : leafwise g t ax <-> ax = tmap no_leaf (fun x => match x with Leaf l => of_opt (g l) | _ => TNone end) t.
  Proof.
    revert ax. induction t as [l| |k cs IH] using tree_ind'; intros ax; cbn [tmap no_leaf].
    - split; [intros H; inversion H; auto|intros ->; apply LW_leaf].
    - split; [intros H; inversion H; auto|intros ->; apply LW_none].
    - assert (HL : forall xs, Forall2 (leafwise g) cs xs <-> xs = map (tmap no_leaf (fun x => match x with Leaf l => of_opt (g l) | _ => TNone end)) cs).
      { induction IH as [|c cs Hc _ IHc]; intros xs; cbn [map].
        - split; [intros H; inversion H; auto|intros ->; constructor].
        - split.
          + intros H. inversion H as [|? x ? xs' H1 H2]; subst. f_equal; [apply Hc; auto|apply IHc; auto].
          + intros ->. constructor; [apply Hc; auto|apply IHc; auto]. }
      split.
      + intros H. inversion H as [| |? ? xs H1]; subst. f_equal. apply HL. auto.
      + intros ->. apply LW_node. apply HL. auto.
  Qed.
  Lemma leafwise_axes g t ax : leafwise g t ax -> axes_at t ax.
  Proof.
    revert ax. induction t as [l| |k cs IH] using tree_ind'; intros ax H; inversion H as [?| |? ? xs HF]; subst.
    - destruct (g l); constructor.
    - constructor.
    - apply AX_node. revert xs H HF. induction IH as [|c cs Hc _ IHc]; intros xs H HF; inversion HF; subst; constructor; auto. apply IHc; auto. constructor; auto.
  Qed.
  Lemma tmap_const (s : tree Z) t : tmap no_leaf (fun _ => s) t = tmap no_leaf (fun x => match x with Leaf l => s | _ => TNone end) t.
  Proof. induction t as [l| |k cs IH] using tree_ind'; cbn [tmap no_leaf]; auto. f_equal. rewrite Forall_forall in IH. apply map_ext_in. auto. Qed.
  Lemma resolve_iff a : forall t ax, resolve_axes t a = Ok ax <-> resolves a t ax.
  Proof.
    unfold resolve_axes. induction a as [s| |k ss IH] using tree_ind'; intros t ax.
    - cbn [tmap2 is_none]. destruct s as [z|g|]; cbn [resolve_axis].
      + split; [intros H; injection H as <-; apply RS_int, leafwise_tmap, tmap_const|intros H; inversion H as [|? ? ? HL| |]; subst; apply leafwise_tmap in HL; subst; f_equal; apply tmap_const].
      + split; [intros H; injection H as <-; apply RS_call, leafwise_tmap; auto|intros H; inversion H as [| |? ? ? HL|]; subst; apply leafwise_tmap in HL; subst; auto].
      + split; [discriminate|intros H; inversion H].
    - cbn [tmap2 is_none resolve_axis]. split; [intros H; injection H as <-; apply RS_none, leafwise_tmap, tmap_const|intros H; inversion H as [? ? HL| | |]; subst; apply leafwise_tmap in HL; subst; f_equal; apply tmap_const].
    - cbn [tmap2 is_none]. destruct t as [l| |k' cs]; try (split; [discriminate|intros H; inversion H]). destruct (Nat.eqb_spec k k') as [<-|N]; [|split; [discriminate|intros H; inversion H; congruence]].
      assert (HK : forall xs, zipM (tmap2 is_none resolve_axis) ss cs = Ok xs <-> resolves_all ss cs xs).
      { revert cs. induction IH as [|s ss Hs _ IHs]; intros [|c cs] xs; cbn [zipM].
        - split; [intros H; injection H as <-; apply RA_nil|intros H; inversion H; auto].
        - split; [discriminate|intros H; inversion H].
        - split; [discriminate|intros H; inversion H].
        - split.
          + intros H. apply bind_ok in H as (x & Hx & H). apply bind_ok in H as (xs' & Hxs & H). injection H as <-. apply RA_cons; [apply Hs|apply IHs]; auto.
          + intros H. inversion H as [|? ? x ? ? xs' H1 H2]; subst. apply Hs in H1. apply IHs in H2. rewrite H1. cbn [bind]. rewrite H2. auto. }
      split.
      + intros H. apply rmap_ok in H as (xs & Hx & ->). apply RS_node, HK. auto.
      + intros H. inversion H as [| | |? ? ? xs H1]; subst. apply HK in H1. rewrite H1. auto.
  Qed.
  Lemma resolves_axes a : forall t ax, resolves a t ax -> axes_at t ax.
  Proof.
    induction a as [s| |k ss IH] using tree_ind'; intros t ax H; inversion H as [? ? HL|? ? ? HL|? ? ? HL|? ? cs xs HL]; subst; try (eapply leafwise_axes; eauto; fail).
    apply AX_node. clear H. revert cs xs HL. induction IH as [|s ss Hs _ IHs]; intros cs xs HL; inversion HL; subst; constructor; eauto.
  Qed.

  (** ** The two halves of a partition by axes *)
  Fixpoint keep t ax : tree (gleaf X) :=
    match t, ax with
    | Leaf l, TNone => Leaf l
    | Node k cs, Node _ xs => Node k (zipw keep cs xs)
    | _, _ => TNone
    end.
  Fixpoint mapd t ax : tree (gleaf X) :=
    match t, ax with
    | Leaf l, Leaf _ => Leaf l
    | Node k cs, Node _ xs => Node k (zipw mapd cs xs)
    | _, _ => TNone
    end.
  Lemma keep_node k k' cs xs : keep (Node k cs) (Node k' xs) = Node k (zipw keep cs xs).
  Proof. cbn [keep]. f_equal. Qed.
  Lemma mapd_node k k' cs xs : mapd (Node k cs) (Node k' xs) = Node k (zipw mapd cs xs).
  Proof. cbn [mapd]. f_equal. Qed.
  Lemma mask_sel isl (sel : bool -> tree (gleaf X) -> tree (gleaf X)) h t ax : (forall l, isl (Leaf l) = false) -> (isl TNone = true \/ isl TNone = false) ->
    (forall l, sel true (Leaf l) = h (Leaf l) TNone) -> (forall l z, sel false (Leaf l) = h (Leaf l) (Leaf z)) -> sel true TNone = TNone -> h TNone TNone = TNone ->
    (forall k cs xs, h (Node k cs) (Node k xs) = Node k (zipw h cs xs)) -> axes_at t ax ->
    tmap2 no_leaf (sel_leaf isl sel) (mask_spec ax) t = Ok (h t ax).
  Proof.
    intros HL HN S1 S2 S3 H0 HH. revert ax. unfold mask_spec. induction t as [l| |k cs IH] using tree_ind'; intros ax H; inversion H as [? ?|?| |? ? xs HF]; subst; cbn [tmap is_none tmap2 no_leaf sel_leaf].
    - rewrite HL. rewrite <- S2. auto.
    - rewrite HL, S1. auto.
    - destruct HN as [-> | ->]; rewrite ?S3, H0; auto.
    - rewrite Nat.eqb_refl. assert (HK : zipM (tmap2 no_leaf (sel_leaf isl sel)) (map (tmap is_none (fun x => Leaf (SBool (is_none x)))) xs) cs = Ok (zipw h cs xs)).
      { clear H. revert xs HF. induction IH as [|c cs Hc _ IHc]; intros xs HF; inversion HF; subst; cbn [map zipM zipw]; [auto|]. rewrite Hc by auto. cbn [bind]. rewrite IHc by auto. auto. }
      rewrite HK, HH. auto.
  Qed.
  Lemma partition_axes isl t ax : isl = no_leaf \/ isl = is_none -> axes_at t ax -> eqx_partition isl TNone t (mask_spec ax) = Ok (keep t ax, mapd t ax).
  Proof.
    intros HI HA. assert (HL : forall l, isl (Leaf l) = false) by (destruct HI; subst; auto). assert (HN : isl TNone = true \/ isl TNone = false) by (destruct (isl TNone); auto).
    apply partition_fused. split; apply mask_sel; auto using keep_node, mapd_node.
  Qed.
End Axes.
