(** Correctness of filter_vmap. *)
From Verif Require Export Vmap_Proofs.
Local Open Scope nat_scope.

Lemma mapM_map {A B} (f : A -> res B) (g : A -> B) l : (forall x, In x l -> f x = Ok (g x)) -> mapM f l = Ok (map g l).
Proof. induction l as [|x l IH]; intros H; cbn [mapM map]; [auto|]. rewrite H by (left; auto). cbn [bind]. rewrite IH by (intros; apply H; right; auto). auto. Qed.
Lemma leaves_node {A} k (cs : list (tree A)) : leaves no_leaf (Node k cs) = concat (map (leaves no_leaf) cs).
Proof. auto. Qed.

Section Vmap.
  Variable V : Type.
  Variable asize : V -> Z -> res nat.
  Variable atake : V -> Z -> nat -> V.
  Variable astack : list V -> V.
  Variable amove : V -> Z -> res V.
  Variable of_num : Z -> V.
  Variable uniform : list V -> Prop.
  Hypothesis laws : array_laws V asize atake astack amove uniform.

  Local Notation slice := (slice V atake of_num).
  Local Notation slices := (slices V atake of_num).
  Local Notation upE := (up (emb V)).
  Local Notation cnone := (fun x => is_none x || no_leaf x).
  Lemma up_node {X Y} (f : gleaf X -> gleaf Y) k cs : up f (Node k cs) = Node k (map (up f) cs).
  Proof. auto. Qed.

  (** *** Inputs *)
  Fixpoint traced (n : nat) (t : tree (gleaf V)) (ax : tree Z) : tree (gleaf (bat V)) :=
    match t, ax with
    | Leaf (Arr a), Leaf z => Leaf (Arr (Bat (map (atake a z) (seq 0 n))))
    | Leaf l, _ => Leaf (emb V l)
    | Node k cs, Node _ xs => Node k (zipw (traced n) cs xs)
    | _, _ => TNone
    end.
  Lemma combine_in n t : forall ax d, axes_at t ax -> tmap2 is_none (slice_leaf V atake n) ax (mapd t ax) = Ok d ->
    eqx_combine no_leaf [d; upE (keep t ax)] = Ok (traced n t ax).
  Proof.
    setoid_rewrite combine_two. induction t as [l| |k cs IH] using tree_ind'; intros ax d HA H; inversion HA as [? z|?| |? ? xs HF]; subst.
    - cbn in H. destruct l as [a|z'|o]; try discriminate. injection H as <-. reflexivity.
    - cbn in H. injection H as <-. cbn [keep]. destruct l; reflexivity.
    - cbn in H. injection H as <-. reflexivity.
    - rewrite mapd_node in H. rewrite keep_node, up_node. cbn [tmap2 is_none] in H. rewrite Nat.eqb_refl in H. apply rmap_ok in H as (ds & HD & ->).
      cbn [tmap2 is_none no_leaf orb traced]. rewrite Nat.eqb_refl.
      assert (HK : zipM (tmap2 cnone comb2) ds (map upE (zipw keep cs xs)) = Ok (zipw (traced n) cs xs)).
      { clear HA. revert xs ds HF HD. induction IH as [|c cs Hc _ IHc]; intros xs ds HF HD; inversion HF as [|? x ? xs' H1 H2]; subst; cbn [zipw zipM map] in *.
        - injection HD as <-. auto.
        - apply bind_ok in HD as (d & Hd & HD). apply bind_ok in HD as (ds' & Hds & HD). injection HD as <-. cbn [zipM]. rewrite (Hc _ _ H1 Hd). cbn [bind]. rewrite (IHc _ _ H2 Hds). auto. }
      rewrite HK. auto.
  Qed.
  Lemma combine_emb t : forall ax, axes_at t ax -> eqx_combine no_leaf [upE (mapd t ax); upE (keep t ax)] = Ok (upE t).
  Proof.
    setoid_rewrite combine_two. induction t as [l| |k cs IH] using tree_ind'; intros ax HA; inversion HA as [? z|?| |? ? xs HF]; subst; auto.
    rewrite mapd_node, keep_node, !up_node. cbn [tmap2 is_none no_leaf orb]. rewrite Nat.eqb_refl.
    assert (HK : zipM (tmap2 cnone comb2) (map upE (zipw mapd cs xs)) (map upE (zipw keep cs xs)) = Ok (map upE cs)).
    { clear HA. revert xs HF. induction IH as [|c cs Hc _ IHc]; intros xs HF; inversion HF as [|? x ? xs' H1 H2]; subst; cbn [zipw zipM map] in *; [auto|].
      rewrite (Hc _ H1). cbn [bind]. rewrite (IHc _ H2). auto. }
    rewrite HK. auto.
  Qed.
  Lemma leaf_list_node {A} k (cs : list (tree A)) : leaf_list (Node k cs) = flat_map leaf_list cs.
  Proof.
    unfold leaf_list. rewrite leaves_node. induction cs as [|c cs IH]; cbn [map concat flat_map]; [auto|]. rewrite flat_map_app, IH. auto.
  Qed.
  Lemma sizes_in n t : forall ax sz, axes_at t ax -> tmap2 is_none (size_leaf V asize) ax (mapd t ax) = Ok sz -> Forall (eq n) (leaf_list sz) -> sizes_are V asize n ax t.
  Proof.
    induction t as [l| |k cs IH] using tree_ind'; intros ax sz HA H HN; inversion HA as [? z|?| |? ? xs HF]; subst.
    - cbn in H. destruct l as [a|z'|o]; try discriminate. apply bind_ok in H as (m & Hm & H). injection H as <-. cbn in HN. apply Forall_inv in HN. subst. apply SZ_map. auto.
    - apply SZ_keep.
    - apply SZ_none.
    - rewrite mapd_node in H. cbn [tmap2 is_none] in H. rewrite Nat.eqb_refl in H. apply rmap_ok in H as (ds & HD & ->). rewrite leaf_list_node in HN. apply SZ_node.
      clear HA. revert xs ds HF HD HN. induction IH as [|c cs Hc _ IHc]; intros xs ds HF HD HN; inversion HF as [|? x ? xs' H1 H2]; subst; cbn [zipw zipM map] in *; [constructor|].
      apply bind_ok in HD as (d & Hd & HD). apply bind_ok in HD as (ds' & Hds & HD). injection HD as <-. cbn [flat_map] in HN. apply Forall_app in HN as [HN1 HN2]. constructor; eauto.
  Qed.
  Lemma batch_size_ok axs ns n : batch_size axs ns = Ok n -> Forall (eq n) ns /\ (axs = None \/ axs = Some n).
  Proof.
    unfold batch_size. destruct axs as [m|]; [|destruct ns as [|m ns]; [discriminate|]].
    - destruct (forallb (Nat.eqb m) ns) eqn:E; [|discriminate]. intros H. injection H as ->. split; [|auto]. rewrite forallb_forall in E. apply Forall_forall. intros x Hx. apply E in Hx. apply Nat.eqb_eq in Hx. auto.
    - destruct (forallb (Nat.eqb m) ns) eqn:E; [|discriminate]. intros H. injection H as ->. split; [|auto]. rewrite forallb_forall in E. constructor; [auto|]. apply Forall_forall. intros x Hx. apply E in Hx. apply Nat.eqb_eq in Hx. auto.
  Qed.
  Lemma traced_batched n t : forall ax, sizes_are V asize n ax t -> batched V uniform n (traced n t ax).
  Proof.
    induction t as [l| |k cs IH] using tree_ind'; intros ax H; inversion H as [z a HS|?| |? xs ? HF]; subst; cbn [traced].
    - constructor. intros l0 E. injection E as <-. rewrite map_length, seq_length. split; [auto|]. apply laws; auto.
    - destruct l; constructor; cbn; intros l0 E; discriminate.
    - constructor.
    - constructor. clear H. revert xs HF. induction IH as [|c cs Hc _ IHc]; intros xs HF; inversion HF as [|? x ? xs' H1 H2]; subst; cbn [zipw]; constructor; eauto.
  Qed.
  Lemma traced_elem n i t : i < n -> forall ax, sizes_are V asize n ax t -> exists t', slice false i ax t t' /\ elem_tree V i (traced n t ax) t'.
  Proof.
    intros Hi. induction t as [l| |k cs IH] using tree_ind'; intros ax H; inversion H as [z a HS|?| |? xs ? HF]; subst; cbn [traced].
    - eexists. split; [apply SC_map|]. apply ET_leaf. cbn. rewrite nth_error_map. assert (E : nth_error (seq 0 n) i = Some i).
      { rewrite (nth_error_nth' _ 0) by (rewrite seq_length; auto). rewrite seq_nth; auto. }
      rewrite E. auto.
    - eexists. split; [apply SC_keep|]. destruct l; apply ET_leaf; cbn; auto.
    - eexists. split; [apply SC_none|]. apply ET_none.
    - assert (HK : exists ts, slices false i xs cs ts /\ Forall2 (elem_tree V i) (zipw (traced n) cs xs) ts).
      { clear H. revert xs HF. induction IH as [|c cs Hc _ IHc]; intros xs HF; inversion HF as [|x ? xs' ? H1 H2]; subst; cbn [zipw]; [exists []; split; constructor|].
        destruct (Hc _ H1) as (t' & A1 & A2). destruct (IHc _ H2) as (ts & B1 & B2). exists (t' :: ts). split; constructor; auto. }
      destruct HK as (ts & A & B). exists (Node k ts). split; [apply SC_node|apply ET_node]; auto.
  Qed.
  Lemma emb_batched n t : batched V uniform n (upE t).
  Proof.
    induction t as [l| |k cs IH] using tree_ind'; [destruct l; constructor; cbn; discriminate|constructor|]. rewrite up_node. constructor. apply Forall_map. auto.
  Qed.
  Lemma emb_elem i t : elem_tree V i (upE t) t.
  Proof.
    induction t as [l| |k cs IH] using tree_ind'; [destruct l; constructor; cbn; auto|constructor|]. rewrite up_node. constructor. induction IH; constructor; auto.
  Qed.

  (** *** Outputs *)
  Lemma upM_node {X Y} (f : gleaf X -> res (gleaf Y)) k cs : upM f (Node k cs) = rmap (Node k) (mapM (upM f) cs).
  Proof. auto. Qed.
  Lemma split_unb t : forall nva nvs nv,
    upM (unb_leaf V) (tmap no_leaf (fun s => if is_arr s then s else TNone) t) = Ok nva ->
    upM (unb_leaf V) (tmap no_leaf (fun s => if is_arr s then TNone else s) t) = Ok nvs ->
    eqx_combine no_leaf [nva; nvs] = Ok nv -> upM (unb_leaf V) t = Ok nv.
  Proof.
    setoid_rewrite combine_two. induction t as [l| |k cs IH] using tree_ind'; intros nva nvs nv H1 H2 H3.
    - cbn [tmap no_leaf] in *. destruct l as [[a|l]|z|o]; cbn in *; try discriminate; injection H1 as <-; injection H2 as <-; cbn in H3; injection H3 as <-; auto.
    - cbn in *. injection H1 as <-. injection H2 as <-. cbn in H3. auto.
    - cbn [tmap no_leaf] in *. rewrite upM_node in *. apply rmap_ok in H1 as (as_ & H1 & ->). apply rmap_ok in H2 as (ss & H2 & ->).
      cbn [tmap2 is_none no_leaf orb] in H3. rewrite Nat.eqb_refl in H3. apply rmap_ok in H3 as (rs & H3 & ->).
      assert (HK : mapM (upM (unb_leaf V)) cs = Ok rs).
      { revert as_ ss rs H1 H2 H3. induction IH as [|c cs Hc _ IHc]; intros as_ ss rs H1 H2 H3; cbn [map mapM] in *; [injection H1 as <-; injection H2 as <-; cbn in H3; auto|].
        apply bind_ok in H1 as (a & Ha & H1). apply bind_ok in H1 as (as' & Has & H1). injection H1 as <-.
        apply bind_ok in H2 as (s & Hs & H2). apply bind_ok in H2 as (ss' & Hss & H2). injection H2 as <-. cbn [zipM] in H3.
        apply bind_ok in H3 as (r & Hr & H3). apply bind_ok in H3 as (rs' & Hrs & H3). injection H3 as <-. rewrite (Hc _ _ _ Ha Hs Hr). cbn [bind]. rewrite (IHc _ _ _ Has Hss Hrs). auto. }
      rewrite HK. auto.
  Qed.
  Lemma upM_none {X Y} (f g : gleaf X -> res (gleaf Y)) t : leaves no_leaf t = [] -> upM f t = upM g t.
  Proof.
    induction t as [l| |k cs IH] using tree_ind'; intros H; [discriminate|auto|]. rewrite leaves_node in H. rewrite !upM_node. f_equal.
    induction IH as [|c cs Hc _ IHc]; cbn [map concat mapM] in *; [auto|]. apply app_eq_nil in H as [H1 H2]. rewrite Hc by auto. rewrite IHc by auto. auto.
  Qed.

  Lemma out_ok n i out : i < n -> forall oax v nv v' r o',
    batched V uniform n out -> axes_at out oax -> elem_tree V i out o' ->
    upM (stack_leaf V astack of_num n) (mapd out oax) = Ok v -> upM (unb_leaf V) (keep out oax) = Ok nv ->
    tmap2 no_leaf (move_leaf V amove) v oax = Ok v' -> eqx_combine no_leaf [v'; nv] = Ok r -> slice true i oax r o'.
  Proof.
    intros Hi. destruct laws as (L1 & L2 & L3 & L4). setoid_rewrite combine_two.
    induction out as [l| |k cs IH] using tree_ind'; intros oax v nv v' r o' HB HA HE H1 H2 H3 H4; inversion HA as [? z|?| |? ? xs HF]; subst.
    - cbn [mapd keep] in *. cbn in H2. injection H2 as <-. cbn [upM] in H1. apply rmap_ok in H1 as (lv & H1 & ->). cbn in H3.
      destruct lv as [b|zz|oo]; cbn in H3; try (destruct l as [[?|?]|?|?]; discriminate).
      apply rmap_ok in H3 as (m & Hm & ->). cbn in H4. injection H4 as <-.
      inversion HB as [? HB'| |]; subst. inversion HE as [? y Hy| |]; subst.
      destruct l as [[a|l]|zz|oo]; cbn in H1; try discriminate; injection H1 as <-; destruct y as [y|y|y]; cbn in Hy; try contradiction; subst.
      + assert (E : atake m z i = a). { rewrite (L4 (repeat a n) z m i); [|apply L2|rewrite repeat_length; exact Hi|exact Hm]. apply L1; [apply L2|]. apply nth_error_repeat. exact Hi. }
        rewrite <- E. apply SC_map.
      + destruct (HB' l eq_refl) as [HL HU]. assert (E : atake m z i = y). { rewrite (L4 l z m i); [|exact HU|lia|exact Hm]. apply L1; [exact HU|exact Hy]. }
        rewrite <- E. apply SC_map.
      + apply SC_num; [auto|]. rewrite (L4 (repeat (of_num y) n) z m i); [|apply L2|rewrite repeat_length; exact Hi|exact Hm]. apply L1; [apply L2|]. apply nth_error_repeat. exact Hi.
    - cbn [mapd keep upM] in *. injection H1 as <-. apply rmap_ok in H2 as (y & H2 & ->). cbn in H3. injection H3 as <-. cbn in H4. injection H4 as <-.
      inversion HE as [? y' Hy| |]; subst. assert (y = y') as ->; [|apply SC_keep].
      destruct l as [[a|l]|zz|oo]; cbn in H2; try discriminate; injection H2 as <-; destruct y'; cbn in Hy; try contradiction; congruence.
    - cbn in *. injection H1 as <-. injection H2 as <-. cbn in H3. injection H3 as <-. cbn in H4. injection H4 as <-. inversion HE; subst. apply SC_none.
    - rewrite mapd_node in H1. rewrite keep_node in H2. rewrite upM_node in *. apply rmap_ok in H1 as (vs & H1 & ->). apply rmap_ok in H2 as (nvs & H2 & ->).
      cbn [tmap2 is_none no_leaf orb] in H3. rewrite Nat.eqb_refl in H3. apply rmap_ok in H3 as (vs' & H3 & ->).
      cbn [tmap2 is_none no_leaf orb] in H4. rewrite Nat.eqb_refl in H4. apply rmap_ok in H4 as (rs & H4 & ->).
      inversion HE as [| |? ? os HO]; subst. inversion HB as [| |? ? HB']; subst. apply SC_node. clear HA HE HB.
      revert xs vs nvs vs' rs os HF H1 H2 H3 H4 HO HB'. induction IH as [|c cs Hc _ IHc]; intros xs vs nvs vs' rs os HF H1 H2 H3 H4 HO HB'; inversion HF as [|? x ? xs' F1 F2]; subst; cbn [zipw mapM] in *; inversion HO as [|? o ? os' O1 O2]; subst.
      + injection H1 as <-. injection H2 as <-. cbn in H3. injection H3 as <-. cbn in H4. injection H4 as <-. constructor.
      + apply bind_ok in H1 as (a & Ha & H1). apply bind_ok in H1 as (as' & Has & H1). injection H1 as <-.
        apply bind_ok in H2 as (s & Hs & H2). apply bind_ok in H2 as (ss' & Hss & H2). injection H2 as <-. cbn [zipM] in H3.
        apply bind_ok in H3 as (w & Hw & H3). apply bind_ok in H3 as (ws' & Hws & H3). injection H3 as <-. cbn [zipM] in H4.
        apply bind_ok in H4 as (r & Hr & H4). apply bind_ok in H4 as (rs' & Hrs & H4). injection H4 as <-.
        inversion HB' as [|? ? B1 B2]; subst. constructor; [eapply Hc; eauto|eapply IHc; eauto].
  Qed.
  Lemma out_sizes n out : size_law V asize astack amove uniform -> forall oax v nv v' r,
    batched V uniform n out -> axes_at out oax ->
    upM (stack_leaf V astack of_num n) (mapd out oax) = Ok v -> upM (unb_leaf V) (keep out oax) = Ok nv ->
    tmap2 no_leaf (move_leaf V amove) v oax = Ok v' -> eqx_combine no_leaf [v'; nv] = Ok r -> sizes_are V asize n oax r.
  Proof.
    intros L5. destruct laws as (L1 & L2 & L3 & L4). setoid_rewrite combine_two.
    induction out as [l| |k cs IH] using tree_ind'; intros oax v nv v' r HB HA H1 H2 H3 H4; inversion HA as [? z|?| |? ? xs HF]; subst.
    - cbn [mapd keep] in *. cbn in H2. injection H2 as <-. cbn [upM] in H1. apply rmap_ok in H1 as (lv & H1 & ->). cbn in H3.
      destruct lv as [b|zz|oo]; cbn in H3; try (destruct l as [[?|?]|?|?]; discriminate).
      apply rmap_ok in H3 as (m & Hm & ->). cbn in H4. injection H4 as <-. inversion HB as [? HB'| |]; subst. constructor.
      destruct l as [[a|l]|zz|oo]; cbn in H1; try discriminate; injection H1 as <-.
      + rewrite (L5 (repeat a n) z m (L2 a n) Hm), repeat_length. reflexivity.
      + destruct (HB' l eq_refl) as [HL HU]. rewrite (L5 l z m HU Hm), HL. reflexivity.
      + rewrite (L5 (repeat (of_num zz) n) z m (L2 _ n) Hm), repeat_length. reflexivity.
    - cbn [mapd keep upM] in *. injection H1 as <-. apply rmap_ok in H2 as (y & H2 & ->). cbn in H3. injection H3 as <-. cbn in H4. injection H4 as <-. constructor.
    - cbn in *. injection H1 as <-. injection H2 as <-. cbn in H3. injection H3 as <-. cbn in H4. injection H4 as <-. constructor.
    - rewrite mapd_node in H1. rewrite keep_node in H2. rewrite upM_node in *. apply rmap_ok in H1 as (vs & H1 & ->). apply rmap_ok in H2 as (nvs & H2 & ->).
      cbn [tmap2 is_none no_leaf orb] in H3. rewrite Nat.eqb_refl in H3. apply rmap_ok in H3 as (vs' & H3 & ->).
      cbn [tmap2 is_none no_leaf orb] in H4. rewrite Nat.eqb_refl in H4. apply rmap_ok in H4 as (rs & H4 & ->).
      inversion HB as [| |? ? HB']; subst. constructor. clear HA HB.
      revert xs vs nvs vs' rs HF H1 H2 H3 H4 HB'. induction IH as [|c cs Hc _ IHc]; intros xs vs nvs vs' rs HF H1 H2 H3 H4 HB'; inversion HF as [|? x ? xs' F1 F2]; subst; cbn [zipw mapM] in *.
      + injection H1 as <-. injection H2 as <-. cbn in H3. injection H3 as <-. cbn in H4. injection H4 as <-. constructor.
      + apply bind_ok in H1 as (a & Ha & H1). apply bind_ok in H1 as (as' & Has & H1). injection H1 as <-.
        apply bind_ok in H2 as (s & Hs & H2). apply bind_ok in H2 as (ss' & Hss & H2). injection H2 as <-. cbn [zipM] in H3.
        apply bind_ok in H3 as (w & Hw & H3). apply bind_ok in H3 as (ws' & Hws & H3). injection H3 as <-. cbn [zipM] in H4.
        apply bind_ok in H4 as (r & Hr & H4). apply bind_ok in H4 as (rs' & Hrs & H4). injection H4 as <-.
        inversion HB' as [|? ? B1 B2]; subst. constructor; [eapply Hc; eauto|eapply IHc; eauto].
  Qed.
  (** The assertion of line 181 never fails. *)
  Lemma def_ok n out : forall oax v, axes_at out oax -> upM (stack_leaf V astack of_num n) (mapd out oax) = Ok v -> def_eqb (treedef no_leaf v) (treedef no_leaf oax) = true.
  Proof.
    induction out as [l| |k cs IH] using tree_ind'; intros oax v HA H; inversion HA as [? z|?| |? ? xs HF]; subst.
    - cbn [mapd upM] in H. apply rmap_ok in H as (y & _ & ->). auto.
    - cbn in H. injection H as <-. auto.
    - cbn in H. injection H as <-. auto.
    - rewrite mapd_node, upM_node in H. apply rmap_ok in H as (vs & H & ->). cbn [treedef no_leaf def_eqb]. rewrite Nat.eqb_refl. cbn [andb].
      clear HA. revert xs vs HF H. induction IH as [|c cs Hc _ IHc]; intros xs vs HF H; inversion HF as [|? x ? xs' F1 F2]; subst; cbn [zipw mapM] in *; [injection H as <-; auto|].
      apply bind_ok in H as (a & Ha & H). apply bind_ok in H as (as' & Has & H). injection H as <-. cbn [map]. rewrite (Hc _ _ F1 Ha). cbn [andb]. apply IHc; auto.
  Qed.
  Lemma slice_leafless o i ax : forall t t', leaves no_leaf ax = [] -> slice o i ax t t' -> t = t'.
  Proof.
    induction ax as [z| |k xs IH] using tree_ind'; intros t t' HL H; [discriminate|inversion H; auto|]. rewrite leaves_node in HL.
    inversion H as [| | | |? ? cs ds HS]; subst. f_equal. clear H. revert cs ds HL HS. induction IH as [|x xs Hx _ IHx]; intros cs ds HL HS; inversion HS; subst; [auto|].
    cbn [map concat] in HL. apply app_eq_nil in HL as [L1 L2]. f_equal; auto.
  Qed.
  Lemma mapd_leaves {X} (t : tree (gleaf X)) : forall ax, axes_at t ax -> (leaves no_leaf (mapd t ax) = [] <-> leaves no_leaf ax = []).
  Proof.
    induction t as [l| |k cs IH] using tree_ind'; intros ax HA; inversion HA as [? z|?| |? ? xs HF]; subst; cbn [mapd]; try (cbn; tauto); [cbn; split; discriminate|].
    rewrite !leaves_node. clear HA. revert xs HF. induction IH as [|c cs Hc _ IHc]; intros xs HF; inversion HF as [|? x ? xs' F1 F2]; subst; cbn [zipw map concat]; [tauto|].
    specialize (Hc _ F1). specialize (IHc _ F2). split; intros E; apply app_eq_nil in E as [E1 E2]; apply Hc in E1; apply IHc in E2; rewrite E1, E2; auto.
  Qed.

  Variable fn : tree (gleaf (bat V)) -> res (tree (gleaf (bat V))).
  Variable fc : tree (gleaf V) -> res (tree (gleaf V)).
  Hypothesis Htr : traces V uniform fn fc.

  Lemma wrapper_inv spec sta dyn args w : eqx_combine no_leaf [dyn; sta] = Ok args -> fun_wrapper V fn spec sta dyn = Ok w ->
    exists out oax, fn args = Ok out /\ resolves spec out oax /\ w = {| w_vmapd := mapd out oax; w_arr := tmap no_leaf (fun s => if is_arr s then s else TNone) (keep out oax);
       w_static := tmap no_leaf (fun s => if is_arr s then TNone else s) (keep out oax); w_axes := oax |}.
  Proof.
    intros HC H. unfold fun_wrapper in H. rewrite HC in H. cbn [bind] in H. apply bind_ok in H as (out & Ho & H). apply bind_ok in H as (oax & Hx & H). apply resolve_iff in Hx.
    rewrite (partition_axes is_none) in H by (eauto using resolves_axes). cbn [bind] in H. apply bind_ok in H as ([a s] & HP & H). apply partition_fused in HP as [P1 P2]. cbn in P1, P2.
    injection P1 as <-. injection P2 as <-. injection H as <-. exists out, oax. auto.
  Qed.
  Lemma finish_inv v nva nvs oax r : finish V amove v nva nvs oax = Ok r -> exists nv v', eqx_combine no_leaf [nva; nvs] = Ok nv /\ tmap2 no_leaf (move_leaf V amove) v oax = Ok v' /\ eqx_combine no_leaf [v'; nv] = Ok r.
  Proof. unfold finish. intros H. apply bind_ok in H as (nv & H1 & H). apply bind_ok in H as (u & _ & H). apply bind_ok in H as (v' & H2 & H). eauto. Qed.

  Lemma filter_vmap_full out_spec params ia axs args kw r : filter_vmap V asize atake astack amove of_num fn out_spec params ia axs args kw = Ok r ->
    exists spec iax out oax, named_in_axes params ia (length args) = Ok spec /\ resolves spec (Node tuple_kind args) iax /\ resolves out_spec out oax /\
      ((leaves no_leaf iax = [] /\ axs = None /\ leaves no_leaf oax = [] /\ fc (Node tuple_kind args) = Ok r /\ elem_tree V 0 out r) \/
       (exists n, sizes_are V asize n iax (Node tuple_kind args) /\ (axs = None \/ axs = Some n) /\ batched V uniform n out /\ (size_law V asize astack amove uniform -> sizes_are V asize n oax r) /\ (leaves no_leaf iax = [] -> axs <> None) /\
          forall i, i < n -> exists t' o', slice false i iax (Node tuple_kind args) t' /\ fc t' = Ok o' /\ elem_tree V i out o' /\ slice true i oax r o')).
  Proof.
    intros H. unfold filter_vmap in H. destruct (0 <? kw); [discriminate|]. apply bind_ok in H as (spec & Hs & H). apply bind_ok in H as (iax & Hi & H). apply resolve_iff in Hi.
    pose proof (resolves_axes _ _ _ Hi) as HA. rewrite (partition_axes no_leaf) in H by auto. cbn [bind] in H. set (argt := Node tuple_kind args) in *. clearbody argt. exists spec, iax.
    assert (HM : (leaves no_leaf iax = [] /\ axs = None) \/ ((leaves no_leaf iax = [] -> axs <> None) /\ (sizes <- tmap2 is_none (size_leaf V asize) iax (mapd argt iax) ;; n <- batch_size axs (leaf_list sizes) ;;
        tdyn <- tmap2 is_none (slice_leaf V atake n) iax (mapd argt iax) ;; w <- fun_wrapper V fn out_spec (upE (keep argt iax)) tdyn ;;
        v <- upM (stack_leaf V astack of_num n) (w_vmapd V w) ;; nva <- upM (unb_leaf V) (w_arr V w) ;; nvs <- upM (unb_leaf V) (w_static V w) ;; finish V amove v nva nvs (w_axes V w)) = Ok r)).
    { destruct (leaves no_leaf iax); [destruct axs|]; auto; right; split; auto; discriminate. }
    destruct HM as [[E ->]|[HE HH]].
    - rewrite E in H. apply bind_ok in H as (w & Hw & H). destruct (wrapper_inv _ _ _ _ _ (combine_emb _ _ HA) Hw) as (out & oax & Ho & Hr & ->). cbn [w_vmapd w_arr w_static w_axes] in H.
      destruct (leaves no_leaf (mapd out oax)) eqn:EL; [|discriminate]. pose proof (resolves_axes _ _ _ Hr) as HB.
      apply bind_ok in H as (v & Hv & H). apply bind_ok in H as (nva & Hnva & H). apply bind_ok in H as (nvs & Hnvs & H). apply finish_inv in H as (nv & v' & F1 & F2 & F3).
      pose proof (split_unb _ _ _ _ Hnva Hnvs F1) as Hnv. rewrite (upM_none _ (stack_leaf V astack of_num 1)) in Hv by auto. apply mapd_leaves in EL; auto.
      exists out, oax. do 3 (split; [auto|]). left. do 3 (split; [auto|]).
      destruct (Htr 1 _ _ (emb_batched 1 argt) Ho) as [B1 B2]. destruct (B2 0 argt Nat.lt_0_1 (emb_elem 0 argt)) as (o' & Hc & He).
      assert (r = o') as ->. { eapply slice_leafless; [exact EL|]. eapply (out_ok 1 0 out Nat.lt_0_1); eauto. } auto.
    - clear H. rename HH into H. apply bind_ok in H as (sz & Hsz & H). apply bind_ok in H as (n & Hn & H). apply bind_ok in H as (td & Htd & H). apply bind_ok in H as (w & Hw & H).
      destruct (wrapper_inv _ _ _ _ _ (combine_in _ _ _ _ HA Htd) Hw) as (out & oax & Ho & Hr & ->). cbn [w_vmapd w_arr w_static w_axes] in H. pose proof (resolves_axes _ _ _ Hr) as HB.
      apply bind_ok in H as (v & Hv & H). apply bind_ok in H as (nva & Hnva & H). apply bind_ok in H as (nvs & Hnvs & H). apply finish_inv in H as (nv & v' & F1 & F2 & F3).
      pose proof (split_unb _ _ _ _ Hnva Hnvs F1) as Hnv. apply batch_size_ok in Hn as [Hn1 Hn2].
      pose proof (sizes_in n _ _ _ HA Hsz Hn1) as HS. destruct (Htr n _ _ (traced_batched n argt iax HS) Ho) as [B1 B2]. exists out, oax. do 3 (split; [auto|]). right. exists n. do 3 (split; [auto|]). split; [intros L5; eapply out_sizes; eauto|]. split; [exact HE|]. intros i Hlt.
      destruct (traced_elem n i argt Hlt iax HS) as (t' & S1 & S2). destruct (B2 i t' Hlt S2) as (o' & Hc & He).
      exists t', o'. do 3 (split; [auto|]). eapply out_ok; eauto.
  Qed.
  Lemma filter_vmap_ok out_spec params ia axs args kw r : filter_vmap V asize atake astack amove of_num fn out_spec params ia axs args kw = Ok r ->
    exists spec iax out oax, named_in_axes params ia (length args) = Ok spec /\ resolves spec (Node tuple_kind args) iax /\ resolves out_spec out oax /\
      ((leaves no_leaf iax = [] /\ axs = None /\ leaves no_leaf oax = [] /\ fc (Node tuple_kind args) = Ok r /\ elem_tree V 0 out r) \/
       (exists n, sizes_are V asize n iax (Node tuple_kind args) /\ (axs = None \/ axs = Some n) /\ batched V uniform n out /\
          forall i, i < n -> exists t' o', slice false i iax (Node tuple_kind args) t' /\ fc t' = Ok o' /\ elem_tree V i out o' /\ slice true i oax r o')).
  Proof.
    intros H. destruct (filter_vmap_full _ _ _ _ _ _ _ H) as (spec & iax & out & oax & H1 & H2 & H3 & H4). exists spec, iax, out, oax. do 3 (split; [auto|]).
    destruct H4 as [H4|(n & A & B & C & _ & _ & D)]; [left; exact H4|]. right. exists n. auto.
  Qed.
End Vmap.
