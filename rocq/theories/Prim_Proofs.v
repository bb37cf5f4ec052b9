From Verif Require Import Filters_Proofs Tree_Rel Prim_Spec.

Section Proofs.
  Context {L : Type}.
  Implicit Types (x y : tree L) (vs : list (tree L)) (g : L -> bool).

  Lemma tdef_eqb_spec d : forall e, tdef_eqb d e = true <-> d = e.
  Proof.
    induction d as [[]| |k ds IH] using tree_ind'; intros [[]| |l es]; simpl; try (split; congruence).
    rewrite andb_true_iff, Nat.eqb_eq.
    match goal with |- context[?g ds es] =>
      assert (H : forall es, g ds es = true <-> ds = es) end.
    { clear es. induction IH as [|d ds Hd _ IHds]; intros [|e es]; simpl; try (split; congruence).
      rewrite andb_true_iff, Hd, IHds. split; [intros [-> ->]; reflexivity|intros H; injection H; auto]. }
    rewrite H. split; [intros [-> ->]; reflexivity|intros E; injection E; auto].
  Qed.

  Definition count g x : nat := length (List.filter (on_leaf g) (leaves no_leaf x)).

  Lemma fills_exists g h x : forall vs, length vs = count g x -> exists y, fills g h x vs y.
  Proof.
    induction x as [a| |k cs IH] using tree_ind'; intros vs H; unfold count in H; simpl in H.
    - destruct (g a) eqn:E; simpl in H.
      + destruct vs as [|v [|]]; try discriminate. eexists; constructor; exact E.
      + destruct vs; [|discriminate]. eexists; constructor; exact E.
    - destruct vs; [|discriminate]. eexists; constructor.
    - assert (HL : forall vs, length vs = length (List.filter (on_leaf g) (concat (map (leaves no_leaf) cs))) ->
        exists ds, fills_list g h cs vs ds).
      { clear vs H. induction IH as [|c cs Hc _ IHcs]; intros vs H; simpl in H.
        - destruct vs; [|discriminate]. eexists; constructor.
        - rewrite filter_app, app_length in H. fold (count g c) in H.
          destruct (Hc (firstn (count g c) vs)) as [d Hd]; [rewrite firstn_length; lia|].
          destruct (IHcs (skipn (count g c) vs)) as [ds Hds]; [rewrite skipn_length; lia|].
          exists (d :: ds). rewrite <- (firstn_skipn (count g c) vs). constructor; auto. }
      destruct (HL vs H) as [ds Hds]. exists (Node k ds). constructor; exact Hds.
  Qed.

  Lemma fills_count g h :
    (forall x vs y, fills g h x vs y -> length vs = count g x) /\
    (forall cs vs ds, fills_list g h cs vs ds ->
       length vs = length (List.filter (on_leaf g) (concat (map (leaves no_leaf) cs)))).
  Proof.
    apply fills_mut; intros; unfold count in *; simpl; auto.
    - rewrite H; reflexivity.
    - rewrite H; reflexivity.
    - rewrite filter_app, !app_length. lia.
  Qed.

  Definition statics g (h : L -> tree L) (l : list (tree L)) : list (option (tree L)) :=
    map (fun t => match t with Leaf a => if g a then None else Some (h a) | _ => Some t end) l.

  (** Recombining flat dynamic and static values and unflattening. *)
  Lemma fills_combine g h :
    (forall x vs y, fills g h x vs y -> exists l,
       (forall rest st, combine_loop (vs ++ rest) (statics g h (leaves no_leaf x) ++ st)
          = ('(o, r) <- combine_loop rest st ;; Ok (l ++ o, r))) /\
       (forall rest, unflat (treedef no_leaf x) (l ++ rest) = Ok (y, rest))) /\
    (forall cs vs ds, fills_list g h cs vs ds -> exists l,
       (forall rest st, combine_loop (vs ++ rest)
            (statics g h (concat (map (leaves no_leaf) cs)) ++ st)
          = ('(o, r) <- combine_loop rest st ;; Ok (l ++ o, r))) /\
       (forall rest, unflats unflat (map (treedef no_leaf) cs) (l ++ rest) = Ok (ds, rest))).
  Proof.
    apply fills_mut.
    - intros a v Hg. exists [v]. split; intros; simpl; [rewrite Hg; reflexivity|reflexivity].
    - intros a Hg. exists [h a]. split; intros; simpl; [rewrite Hg; reflexivity|reflexivity].
    - exists []. split; intros; simpl; [|reflexivity].
      destruct (combine_loop rest st) as [[o r]|]; reflexivity.
    - intros k cs vs ds _ (l & H1 & H2). exists l. split; [exact H1|].
      intros rest. simpl. rewrite H2. reflexivity.
    - exists []. split; intros; simpl; [|reflexivity].
      destruct (combine_loop rest st) as [[o r]|]; reflexivity.
    - intros c cs v vs d ds _ (l1 & H1 & H2) _ (l2 & H3 & H4). exists (l1 ++ l2). split.
      + intros rest st. simpl. unfold statics in *. rewrite map_app, <- !app_assoc, H1, H3.
        destruct (combine_loop rest st) as [[o r]|]; simpl; [|reflexivity].
        rewrite app_assoc. reflexivity.
      + intros rest. simpl. rewrite <- app_assoc, H2. simpl. rewrite H4. reflexivity.
  Qed.

  Lemma combine_unflatten g h x vs y : fills g h x vs y ->
    (flat <- combine_flat vs (statics g h (leaves no_leaf x)) ;; unflatten (treedef no_leaf x) flat) = Ok y.
  Proof.
    intros H. destruct (proj1 (fills_combine g h) x vs y H) as (l & H1 & H2).
    specialize (H1 [] []). rewrite !app_nil_r in H1. simpl in H1. rewrite app_nil_r in H1.
    unfold combine_flat. rewrite H1. simpl. unfold unflatten. specialize (H2 []).
    rewrite app_nil_r in H2. rewrite H2. reflexivity.
  Qed.

  Lemma fills_self g x : fills g Leaf x (List.filter (on_leaf g) (leaves no_leaf x)) x.
  Proof.
    induction x as [a| |k cs IH] using tree_ind'; simpl.
    - destruct (g a) eqn:E; constructor; exact E.
    - constructor.
    - constructor. induction IH as [|c cs Hc _ IHcs]; simpl; [constructor|].
      rewrite filter_app. constructor; auto.
  Qed.

  Lemma fills_fun g h :
    (forall x vs y, fills g h x vs y -> forall y', fills g h x vs y' -> y = y') /\
    (forall cs vs ds, fills_list g h cs vs ds -> forall ds', fills_list g h cs vs ds' -> ds = ds').
  Proof.
    apply fills_mut.
    - intros a v Hg y' H. inversion H; subst; congruence.
    - intros a Hg y' H. inversion H; subst; congruence.
    - intros y' H. inversion H; reflexivity.
    - intros k cs vs ds _ IH y' H. inversion H; subst. f_equal; auto.
    - intros ds' H. inversion H; reflexivity.
    - intros c cs v vs d ds Hc IHc Hcs IHcs ds' H.
      inversion H as [|c0 cs0 v0 vs0 d0 ds0 Hc0 Hcs0 E1 E2 E3]; subst.
      assert (El : length v = length v0).
      { rewrite (proj1 (fills_count g h) _ _ _ Hc), (proj1 (fills_count g h) _ _ _ Hc0). reflexivity. }
      assert (Ev : v = v0 /\ vs = vs0).
      { apply (f_equal (firstn (length v))) in E2 as F1. apply (f_equal (skipn (length v))) in E2 as F2.
        rewrite !firstn_app, !firstn_all, El, Nat.sub_diag in F1. rewrite firstn_all in F1. simpl in F1.
        rewrite !skipn_app, !skipn_all, El, Nat.sub_diag in F2. rewrite skipn_all in F2. simpl in F2.
        rewrite !app_nil_r in F1. auto. }
      destruct Ev as [-> ->]. f_equal; auto.
  Qed.

  Definition dynp g x : tree L := tmap no_leaf (fun s => if on_leaf g s then s else TNone) x.
  Definition stap g x : tree L := tmap no_leaf (fun s => if on_leaf g s then TNone else s) x.

  Lemma partition_pred g x :
    eqx_partition no_leaf TNone x (Leaf (SCall (on_leaf g))) = Ok (dynp g x, stap g x).
  Proof. apply partition_fused; split; reflexivity. Qed.

  Lemma dynp_leaves g x : leaves no_leaf (dynp g x) = List.filter (on_leaf g) (leaves no_leaf x).
  Proof.
    induction x as [a| |k cs IH] using tree_ind'.
    - unfold dynp; simpl. destruct (g a); reflexivity.
    - reflexivity.
    - unfold dynp in *; simpl. clear k.
      induction IH as [|c cs Hc _ IHcs]; simpl; [reflexivity|].
      rewrite filter_app, Hc, IHcs; reflexivity.
  Qed.

  (** Putting values in place of the dynamic leaves of a partitioned tree. *)
  Lemma fills_unpack g :
    (forall x vs y, fills g Leaf x vs y -> Forall is_Leaf vs -> exists d,
       (forall rest, unflat (treedef no_leaf (dynp g x)) (vs ++ rest) = Ok (d, rest)) /\
       tmap2 (fun t => is_none t || no_leaf t) comb2 d (stap g x) = Ok y) /\
    (forall cs vs ds, fills_list g Leaf cs vs ds -> Forall is_Leaf vs -> exists es,
       (forall rest, unflats unflat (map (treedef no_leaf) (map (dynp g) cs)) (vs ++ rest) = Ok (es, rest)) /\
       zipM (tmap2 (fun t => is_none t || no_leaf t) comb2) es (map (stap g) cs) = Ok ds).
  Proof.
    apply fills_mut.
    - intros a v Hg Hv. inversion Hv as [|v' l [b ->] _]; subst. exists (Leaf b).
      unfold dynp, stap; simpl. rewrite Hg. split; reflexivity.
    - intros a Hg _. exists TNone. unfold dynp, stap; simpl. rewrite Hg. split; reflexivity.
    - intros _. exists TNone. split; reflexivity.
    - intros k cs vs ds _ IH Hv. destruct (IH Hv) as (es & H1 & H2). exists (Node k es). split.
      + intros rest. change (dynp g (Node k cs)) with (Node k (map (dynp g) cs)).
        cbn [treedef no_leaf unflat]. rewrite H1. reflexivity.
      + change (stap g (Node k cs)) with (Node k (map (stap g) cs)). cbn [tmap2 is_none no_leaf orb].
        rewrite Nat.eqb_refl, H2. reflexivity.
    - intros _. exists []. split; reflexivity.
    - intros c cs v vs d ds _ IH1 _ IH2 Hv. apply Forall_app in Hv as [Hv1 Hv2].
      destruct (IH1 Hv1) as (e & H1 & H2). destruct (IH2 Hv2) as (es & H3 & H4).
      exists (e :: es). split.
      + intros rest. simpl. rewrite <- app_assoc, H1. simpl. rewrite H3. reflexivity.
      + simpl. rewrite H2. simpl. rewrite H4. reflexivity.
  Qed.

  Lemma unpack_fills g x vs y : fills g Leaf x vs y -> Forall is_Leaf vs ->
    unpack (Some (treedef no_leaf (dynp g x), stap g x)) vs = Ok y.
  Proof.
    intros H Hv. destruct (proj1 (fills_unpack g) x vs y H Hv) as (d & H1 & H2).
    unfold unpack, unflatten. specialize (H1 []). rewrite app_nil_r in H1. rewrite H1. cbn [bind].
    rewrite combine_two. exact H2.
  Qed.

  Lemma pack_statics g x :
    map (fun t => if on_leaf g t then None else Some t) (leaves no_leaf x)
    = statics g Leaf (leaves no_leaf x).
  Proof.
    unfold statics. apply map_ext_in. intros t Ht.
    pose proof (leaves_are_Leaf x) as HL. rewrite Forall_forall in HL.
    destruct (HL t Ht) as [a ->]. reflexivity.
  Qed.

  (** ** Pairing *)
  Variable g : L -> bool.
  Notation mspec := (make_spec g).
  Definition bad (p : option L * option L) : bool :=
    match p with (None, Some _) => true | _ => false end.
  Definition selD (m : bool) (s : tree L) : tree L := if m then s else TNone.
  Definition selS (m : bool) (s : tree L) : tree L := if m then TNone else s.

  Definition flat_out (l : list (option L * option L)) := map (fun p => opt_tree (fst p)) (List.filter (kept g) l).
  Definition flat_like (l : list (option L * option L)) := map (fun p => opt_tree (snd p)) (List.filter (kept g) l).

  Lemma flat_out_app l1 l2 : flat_out (l1 ++ l2) = flat_out l1 ++ flat_out l2.
  Proof. unfold flat_out. rewrite filter_app, map_app. reflexivity. Qed.
  Lemma flat_like_app l1 l2 : flat_like (l1 ++ l2) = flat_like l1 ++ flat_like l2.
  Proof. unfold flat_like. rewrite filter_app, map_app. reflexivity. Qed.

  (** Everything [Flatten.__call__] computes about two trees that match. *)
  Lemma pairs_flatten :
    (forall x y l, pairs x y l -> existsb bad l = false -> exists spec d s l2,
       tmap2 is_none mspec x y = Ok spec /\
       tmap2 no_leaf (sel_leaf is_none selD) spec x = Ok d /\
       tmap2 no_leaf (sel_leaf is_none selS) spec x = Ok s /\
       tmap2 is_none get_second d (tmap is_none replace_none y) = Ok l2 /\
       treedef no_leaf l2 = treedef no_leaf d /\
       leaves no_leaf d = flat_out l /\
       map undummy (leaves no_leaf l2) = flat_like l /\
       tmap2 (fun t => is_none t || no_leaf t) comb2 d s = Ok x) /\
    (forall xs ys l, pairs_list xs ys l -> existsb bad l = false -> exists specs ds ss ls,
       zipM (tmap2 is_none mspec) xs ys = Ok specs /\
       zipM (tmap2 no_leaf (sel_leaf is_none selD)) specs xs = Ok ds /\
       zipM (tmap2 no_leaf (sel_leaf is_none selS)) specs xs = Ok ss /\
       zipM (tmap2 is_none get_second) ds (map (tmap is_none replace_none) ys) = Ok ls /\
       map (treedef no_leaf) ls = map (treedef no_leaf) ds /\
       concat (map (leaves no_leaf) ds) = flat_out l /\
       map undummy (concat (map (leaves no_leaf) ls)) = flat_like l /\
       zipM (tmap2 (fun t => is_none t || no_leaf t) comb2) ds ss = Ok xs).
  Proof.
    apply pairs_mut.
    - intros x y a b -> -> Hb. unfold flat_out, flat_like. destruct a as [a|], b as [b|]; simpl in Hb; try discriminate.
      + exists (Leaf (SBool true)), (Leaf a), TNone, (Leaf (Some b)).
        split; [reflexivity|]. split; [reflexivity|]. split; [reflexivity|]. split; [reflexivity|].
        split; [reflexivity|]. split; [reflexivity|]. split; reflexivity.
      + exists (Leaf (SBool (g a))). simpl. destruct (g a) eqn:E.
        * exists (Leaf a), TNone, (Leaf None). rewrite ?E.
          do 4 (split; [reflexivity|]). do 3 (split; [reflexivity|]). reflexivity.
        * exists TNone, (Leaf a), TNone. rewrite ?E.
          do 4 (split; [reflexivity|]). do 3 (split; [reflexivity|]). reflexivity.
      + exists (Leaf (SBool false)), TNone, TNone, TNone. simpl.
        do 4 (split; [reflexivity|]). do 3 (split; [reflexivity|]). reflexivity.
    - intros k cs ds l _ IH Hb. destruct (IH Hb) as (specs & es & ss & ls & H1 & H2 & H3 & H4 & H5 & H6 & H7 & H8).
      exists (Node k specs), (Node k es), (Node k ss), (Node k ls).
      cbn [tmap2 tmap is_none orb no_leaf]. rewrite Nat.eqb_refl, H1, H2, H3, H4, H8. cbn [rmap].
      do 4 (split; [reflexivity|]). split; [simpl; f_equal; exact H5|]. split; [exact H6|]. split; [exact H7|reflexivity]. (* node *)
    - intros _. exists [], [], [], []. do 7 (split; [reflexivity|]). reflexivity.
    - intros c cs d ds l1 l2 _ IH1 _ IH2 Hb. rewrite existsb_app in Hb. apply orb_false_iff in Hb as [Hb1 Hb2].
      destruct (IH1 Hb1) as (sp & e & s & l & A1 & A2 & A3 & A4 & A5 & A6 & A7 & A8).
      destruct (IH2 Hb2) as (specs & es & ss & ls & H1 & H2 & H3 & H4 & H5 & H6 & H7 & H8).
      exists (sp :: specs), (e :: es), (s :: ss), (l :: ls). cbn [zipM map concat].
      rewrite A1, A2, A3, A4, A8. cbn [bind]. rewrite H1, H2, H3, H4, H8. cbn [bind].
      rewrite A5, H5, A6, H6, map_app, A7, H7, flat_out_app, flat_like_app.
      do 7 (split; [reflexivity|]). reflexivity.
  Qed.

  Lemma pairs_bad :
    (forall x y l, pairs x y l -> existsb bad l = true -> tmap2 is_none mspec x y = Err AssertionError) /\
    (forall xs ys l, pairs_list xs ys l -> existsb bad l = true ->
       zipM (tmap2 is_none mspec) xs ys = Err AssertionError).
  Proof.
    apply pairs_mut.
    - intros x y a b -> -> Hb. destruct a, b; simpl in Hb; try discriminate. reflexivity.
    - intros k cs ds l _ IH Hb. cbn [tmap2 is_none]. rewrite Nat.eqb_refl, (IH Hb). reflexivity.
    - discriminate.
    - intros c cs d ds l1 l2 Hp IH1 Hps IH2 Hb. rewrite existsb_app in Hb. cbn [zipM].
      destruct (existsb bad l1) eqn:E1; [rewrite (IH1 eq_refl); reflexivity|].
      destruct (proj1 pairs_flatten _ _ _ Hp E1) as (sp & _ & _ & _ & A1 & _). rewrite A1. cbn [bind].
      rewrite (IH2 Hb). reflexivity.
  Qed.

  Lemma pairs_def :
    (forall (x y : tree L) l, pairs x y l -> treedef is_none x = treedef is_none y) /\
    (forall (xs ys : list (tree L)) l, pairs_list xs ys l -> map (treedef is_none) xs = map (treedef is_none) ys).
  Proof.
    apply pairs_mut.
    - intros x y [a|] [b|] -> ->; reflexivity.
    - intros k cs ds l _ IH. simpl. f_equal; exact IH.
    - reflexivity.
    - intros c cs d ds l1 l2 _ IH1 _ IH2. simpl. f_equal; assumption.
  Qed.

  Lemma def_pairs x : forall y, treedef is_none x = treedef is_none y -> exists l, pairs x y l.
  Proof.
    induction x as [a| |k cs IH] using tree_ind'; intros [b| |k' ds] H; simpl in H; try discriminate.
    - exists [(Some a, Some b)]. constructor; reflexivity.
    - exists [(Some a, None)]. constructor; reflexivity.
    - exists [(None, Some b)]. constructor; reflexivity.
    - exists [(None, None)]. constructor; reflexivity.
    - injection H as <- H.
      assert (HL : exists l, pairs_list cs ds l).
      { revert ds H; induction IH as [|c cs Hc _ IHcs]; intros [|d ds] H; simpl in H; try discriminate.
        - exists []. constructor.
        - injection H as H1 H2. destruct (Hc d H1) as [l1 Hl1]. destruct (IHcs ds H2) as [l2 Hl2].
          exists (l1 ++ l2). constructor; assumption. }
      destruct HL as [l Hl]. exists l. constructor; exact Hl.
  Qed.

  Lemma flatten_like_ok teq x y l : pairs x y l -> existsb bad l = false ->
    exists d s, 
      flatten_like g teq None x y = Ok (flat_out l, flat_like l, Some (treedef no_leaf d, s)) /\
      leaves no_leaf d = flat_out l /\
      tmap2 (fun t => is_none t || no_leaf t) comb2 d s = Ok x.
  Proof.
    intros Hp Hb. destruct (proj1 pairs_flatten x y l Hp Hb) as (sp & d & s & l2 & H1 & H2 & H3 & H4 & H5 & H6 & H7 & H8).
    exists d, s. split; [|split; [exact H6|exact H8]]. unfold flatten_like.
    rewrite (proj2 (tdef_eqb_spec _ _) (proj1 pairs_def x y l Hp)). cbn [negb].
    rewrite H1. cbn [bind].
    assert (HP : eqx_partition is_none TNone x sp = Ok (d, s)) by (apply partition_fused; split; assumption).
    rewrite HP. cbn [bind]. cbn [fl_store bind]. rewrite H4. cbn [bind].
    rewrite (proj2 (tdef_eqb_spec _ _) H5). cbn [negb]. rewrite H6, H7.
    assert (E : length (flat_out l) = length (flat_like l)) by (unfold flat_out, flat_like; rewrite !map_length; reflexivity).
    rewrite E, Nat.eqb_refl. reflexivity.
  Qed.

  Lemma flatten_like_err teq st x y :
    (forall l, pairs x y l -> existsb bad l = true) -> flatten_like g teq st x y = Err AssertionError.
  Proof.
    intros H. unfold flatten_like. destruct (tdef_eqb _ _) eqn:E; simpl; [|reflexivity].
    apply tdef_eqb_spec in E. destruct (def_pairs x y E) as [l Hl].
    rewrite (proj1 pairs_bad x y l Hl (H l Hl)). reflexivity.
  Qed.

  Lemma pairs_fun :
    (forall (x y : tree L) l, pairs x y l -> forall l', pairs x y l' -> l = l') /\
    (forall (xs ys : list (tree L)) l, pairs_list xs ys l -> forall l', pairs_list xs ys l' -> l = l').
  Proof.
    apply pairs_mut.
    - intros x y a b -> -> l' H. inversion H as [x0 y0 a0 b0 E1 E2|]; subst.
      + destruct a, a0; try discriminate; destruct b, b0; try discriminate; congruence.
      + destruct a; discriminate.
    - intros k cs ds l _ IH l' H. inversion H as [x0 y0 a0 b0 E1 E2|]; subst; [destruct a0; discriminate|auto].
    - intros l' H. inversion H; reflexivity.
    - intros c cs d ds l1 l2 _ IH1 _ IH2 l' H. inversion H; subst. f_equal; auto.
  Qed.
End Proofs.
