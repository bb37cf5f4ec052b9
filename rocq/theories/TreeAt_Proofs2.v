From Verif Require Export TreeAt_Proofs.

Lemma erase_copy2 {A} isl (x : pyobj A) : forall rp, erase (copy2 isl rp x) = erase x.
Proof.
  induction x as [a| |id k cs IH|id x IH|id] using pyobj_ind'; intros rp; cbn;
    destruct (isl _); auto.
  cbn. f_equal. generalize 0 as n. induction IH as [|c cs Hc _ IHcs]; intros n; cbn; auto.
  f_equal; auto.
Qed.
Lemma dressed_copy2 {A} isl (x : pyobj A) : leaks x = false -> forall rp, dressed (copy2 isl rp x) = true.
Proof.
  induction x as [a| |id k cs IH|id x IH|id] using pyobj_ind'; intros HL rp; cbn in HL |- *;
    destruct (isl _); cbn; try rewrite HL; auto; try discriminate.
  revert HL; generalize 0 as n. induction IH as [|c cs Hc _ IHcs]; intros n HL; cbn; auto.
  cbn in HL. apply orb_false_iff in HL as [H1 H2]. rewrite Hc, IHcs; auto.
Qed.

(** ** Success of [tree_at], unfolded *)
Section Inv.
  Context {A : Type} (aeq : A -> A -> bool) (isl : pyobj A -> bool).

  Definition fns_of (single : bool) (n2 : pyobj A) (replace : option (tree A))
      (replace_fn : option (pyobj A -> res (pyobj A))) :=
    match replace, replace_fn with
    | None, None => Err ValueError
    | None, Some f =>
        ns <- (if single then Ok [n2] else seq_items n2) ;;
        Ok (map (fun n => (n, fun x => y <- unwrap x ;; f y)) ns)
    | Some r, None =>
        ns <- (if single then Ok [n2] else seq_items n2) ;;
        rs <- (if single then Ok [r] else seq_vals r) ;;
        if negb (Nat.eqb (length ns) (length rs)) then Err ValueError
        else Ok (List.combine ns (map (fun r _ => Ok (embed r)) rs))
    | Some _, Some _ => Err ValueError
    end.

  Lemma tree_at_inv w t r f out :
    tree_at aeq isl w t r f = Ok out ->
    exists n1 n2 d y, w (copy1 [] t) = Ok n1 /\ w (copy2 isl [] (copy1 [] t)) = Ok n2 /\
      check_where aeq isl n1 n2 = Ok tt /\
      fns_of (in_pytree aeq n2 (copy2 isl [] (copy1 [] t))) n2 r f = Ok d /\
      replace_all aeq d (copy2 isl [] (copy1 [] t)) = Ok y /\
      (forall n, In n (map fst d) -> count aeq d (copy2 isl [] (copy1 [] t)) n = 1) /\
      leaks y = false /\ out = erase y.
  Proof.
    unfold tree_at. intros H. bind_inv. destruct a1. fold (fns_of (in_pytree aeq a0 (copy2 isl [] (copy1 [] t))) a0 r f) in Hb5.
    destruct (forallb _ _) eqn:EF; [|discriminate].
    destruct (leaks a3) eqn:EL; [discriminate|]. bind_inv.
    exists a, a0, a2, a3. split; [auto|split; [auto|split; [auto|split; [auto|split; [auto|split; [|auto]]]]]].
    intros n Hn. rewrite forallb_forall in EF. apply EF in Hn. apply Nat.eqb_eq; auto.
  Qed.

  Lemma tree_at_intro w t r f n1 n2 d y :
    w (copy1 [] t) = Ok n1 -> w (copy2 isl [] (copy1 [] t)) = Ok n2 ->
    check_where aeq isl n1 n2 = Ok tt ->
    fns_of (in_pytree aeq n2 (copy2 isl [] (copy1 [] t))) n2 r f = Ok d ->
    replace_all aeq d (copy2 isl [] (copy1 [] t)) = Ok y ->
    (forall n, In n (map fst d) -> count aeq d (copy2 isl [] (copy1 [] t)) n = 1) ->
    leaks y = false -> tree_at aeq isl w t r f = Ok (erase y).
  Proof.
    intros H1 H2 H3 H4 H5 H6 H7. unfold tree_at. rewrite H1; cbn [bind]. rewrite H2; cbn [bind].
    rewrite H3; cbn [bind]. fold (fns_of (in_pytree aeq n2 (copy2 isl [] (copy1 [] t))) n2 r f).
    rewrite H4; cbn [bind]. rewrite H5; cbn [bind].
    replace (forallb _ _) with true; [rewrite H7; auto|].
    symmetry. apply forallb_forall. intros n Hn. apply Nat.eqb_eq; auto.
  Qed.

  (** Arbitrary [where]: the result is the input edited at disjoint positions, all values
      written being replacement values. *)
  Definition edits_of (d : list (pyobj A * (pyobj A -> res (pyobj A)))) (x y : pyobj A) :=
    map (fun ps : path * pyobj A => (fst ps, match sub (erase y) (fst ps) with Some r => r | None => TNone end)) (vis aeq d x).

  Lemma In_edits_of d x y p r : replace_all aeq d x = Ok y ->
    In (p, r) (edits_of d x y) <-> exists s f v, In (p, s) (vis aeq d x) /\
      lookup aeq d s = Some f /\ f s = Ok v /\ r = erase v.
  Proof.
    intros HR. destruct (replace_all_spec aeq d x y HR) as [H1 _].
    unfold edits_of. rewrite in_map_iff. split.
    - intros ([p' s] & E & Hin). cbn in E. inv E. destruct (H1 _ _ Hin) as (f & v & Hf & Hv & Hs).
      rewrite Hs. exists s, f, v; auto.
    - intros (s & f & v & Hin & Hf & Hv & ->). exists (p, s). split; auto. cbn.
      destruct (H1 _ _ Hin) as (f' & v' & Hf' & Hv' & Hs). rewrite Hs. congruence.
  Qed.
  Lemma edits_edited d x y : replace_all aeq d x = Ok y -> edited (erase x) (edits_of d x y) (erase y).
  Proof.
    intros HR. destruct (replace_all_spec aeq d x y HR) as [H1 H2]. split.
    - intros p r Hin. apply In_edits_of in Hin as (s & f & v & Hin & Hf & Hv & ->); auto.
      destruct (H1 _ _ Hin) as (f' & v' & Hf' & Hv' & Hs). rewrite Hs. congruence.
    - intros q Hq. apply H2. intros p s Hin HP. destruct (H1 _ _ Hin) as (f & v & Hf & Hv & Hs).
      eapply (Hq p (erase v)); auto. apply In_edits_of; auto. exists s, f, v; auto.
  Qed.
  Lemma edits_disjoint d x y : disjoint_edits (edits_of d x y).
  Proof.
    intros i j p r q s Hi Hj HP. unfold edits_of in Hi, Hj. rewrite nth_error_map in Hi, Hj.
    destruct (nth_error (vis aeq d x) i) as [[p' s']|] eqn:Ei; cbn in Hi; inv Hi.
    destruct (nth_error (vis aeq d x) j) as [[q' r']|] eqn:Ej; cbn in Hj; inv Hj.
    exact (vis_disjoint aeq d x i j _ _ _ _ Ei Ej HP).
  Qed.

  Lemma lookup_In {V} (d : list (pyobj A * V)) x v : lookup aeq d x = Some v ->
    exists n, In (n, v) d /\ same aeq n x = true.
  Proof.
    induction d as [|[n w] d IH]; cbn; [discriminate|]. destruct (lookup aeq d x) as [w'|].
    - intros E; inv E. destruct IH as (m & Hm & Hs); auto. exists m; auto.
    - destruct (same aeq n x) eqn:ES; [|discriminate]. intros E; inv E. exists n; auto.
  Qed.

  Lemma tree_at_frame w t r out :
    tree_at aeq isl w t (Some r) None = Ok out ->
    exists edits, disjoint_edits edits /\ edited t edits out /\
      ((forall p v, In (p, v) edits -> v = r) \/
       (forall p v, In (p, v) edits -> exists k rs, r = Node k rs /\ In v rs)).
  Proof.
    intros H. apply tree_at_inv in H as (n1 & n2 & d & y & H1 & H2 & H3 & H4 & H5 & H6 & H7 & ->).
    exists (edits_of d (copy2 isl [] (copy1 [] t)) y).
    split; [apply edits_disjoint|]. split.
    { pose proof (edits_edited d _ _ H5) as HE. rewrite erase_copy2, erase_copy1 in HE. exact HE. }
    unfold fns_of in H4. destruct (in_pytree _ _ _).
    - left. intros p v Hin. apply In_edits_of in Hin as (s & f & u & Hin & Hf & Hv & ->); auto.
      apply lookup_In in Hf as (n & Hn & _). cbn in H4. inv H4. destruct Hn as [E|[]].
      inv E. inv Hv. apply erase_embed.
    - right. apply bind_ok in H4 as (ns & HN & H4). apply bind_ok in H4 as (rs & HRS & H4).
      destruct (negb _); [discriminate|]. injection H4 as <-.
      intros p v Hin. apply In_edits_of in Hin as (s & f & u & Hin & Hf & Hv & ->); auto.
      apply lookup_In in Hf as (n & Hn & _).
      apply in_combine_r in Hn. apply in_map_iff in Hn as (r' & E & Hr'). inv E.
      inv Hv. rewrite erase_embed. destruct r as [| |k rs']; cbn in HRS; try discriminate.
      destruct (is_seq k); inv HRS. eauto.
  Qed.

  Lemma tree_at_frame_fn w t f out :
    tree_at aeq isl w t None (Some f) = Ok out ->
    exists edits, disjoint_edits edits /\ edited t edits out /\
      forall p v, In (p, v) edits -> exists x y, f x = Ok y /\ v = erase y.
  Proof.
    intros H. apply tree_at_inv in H as (n1 & n2 & d & y & H1 & H2 & H3 & H4 & H5 & H6 & H7 & ->).
    exists (edits_of d (copy2 isl [] (copy1 [] t)) y).
    split; [apply edits_disjoint|]. split.
    { pose proof (edits_edited d _ _ H5) as HE. rewrite erase_copy2, erase_copy1 in HE. exact HE. }
    intros p v Hin. apply In_edits_of in Hin as (s & g & u & Hin & Hf & Hv & ->); auto.
    apply lookup_In in Hf as (n & Hn & _). unfold fns_of in H4.
    apply bind_ok in H4 as (ns & HN & H4). injection H4 as <-.
    apply in_map_iff in Hn as (m & E & _). inv E. apply bind_ok in Hv as (z & _ & Hz). eauto.
  Qed.
End Inv.

(** ** Selecting positions *)
Lemma visible_sub {A} isl (t : tree A) p : visible isl t p -> exists s, sub t p = Some s.
Proof. induction 1 as [t|k cs i c p H1 H2 _ IH]; cbn; eauto. rewrite H2; auto. Qed.

Lemma pick_copy1 {A} (t : tree A) p : forall rp,
  pick (copy1 rp t) p =
  match sub t p with Some s => Ok (copy1 (rev p ++ rp) s) | None => Err AttributeError end.
Proof.
  revert t; induction p as [|i p IH]; intros t rp; cbn; auto.
  destruct t as [a| |k cs]; cbn; auto.
  destruct (Nat.eqb k ktuple && Nat.eqb (length cs) 0) eqn:E; cbn.
  - apply andb_true_iff in E as [_ E]. apply Nat.eqb_eq in E. destruct cs; [|discriminate].
    destruct i; auto.
  - rewrite nth_error_mapi. destruct (nth_error cs i); cbn; auto.
    rewrite IH. destruct (sub t p); auto. rewrite <- app_assoc; auto.
Qed.

Section Select.
  Context {A : Type} (aeq : A -> A -> bool) (uisl : tree A -> bool).
  Hypothesis aeq_refl : forall a, aeq a a = true.
  Notation isl := (by_value uisl).

  Definition D (rp : path) (t : tree A) : pyobj A := copy2 isl rp (copy1 rp t).
  Definition isbare (s : tree A) : bool := match s with TNone => negb (uisl TNone) | _ => false end.

  Lemma D_node rp k cs : uisl (Node k cs) = false ->
    D rp (Node k cs) = if Nat.eqb k ktuple && Nat.eqb (length cs) 0 then PWrap (2, rp) (PDist (1, rp))
                       else PNode (2, rp) k (mapi (fun i c => D (i :: rp) c) 0 cs).
  Proof.
    intros H. unfold D. cbn [copy1]. destruct (_ && _) eqn:E.
    - cbn. destruct (isl (PDist (1, rp))); auto.
    - cbn [copy2]. unfold by_value at 1.
      pose proof (erase_copy1 (Node k cs) rp) as HE. cbn [copy1] in HE. rewrite E in HE.
      rewrite HE, H. f_equal. generalize 0 as n.
      clear. induction cs as [|c cs IH]; intros n; cbn; auto. f_equal; auto.
  Qed.
  Lemma D_leaf rp t : uisl t = true -> D rp t = PWrap (2, rp) (copy1 rp t).
  Proof.
    intros H. unfold D. pose proof (erase_copy1 t rp) as HE.
    destruct (copy1 rp t) eqn:E; cbn [copy2]; unfold by_value; rewrite HE, H; auto.
  Qed.
  Lemma D_bare rp t : isbare t = true -> D rp t = PNone.
  Proof.
    destruct t; cbn; try discriminate. intros H. unfold D; cbn. unfold by_value; cbn.
    apply negb_true_iff in H. rewrite H; auto.
  Qed.
  Lemma D_cases rp t :
    (isbare t = true /\ D rp t = PNone) \/
    (isbare t = false /\ exists x, D rp t = PWrap (2, rp) x) \/
    (isbare t = false /\ uisl t = false /\ exists k cs, t = Node k cs /\
       D rp t = PNode (2, rp) k (mapi (fun i c => D (i :: rp) c) 0 cs)).
  Proof.
    destruct (uisl t) eqn:EU.
    - right; left. split; [|rewrite D_leaf; eauto]. destruct t; cbn; auto. rewrite EU; auto.
    - destruct t as [a| |k cs].
      + right; left. split; auto. unfold D; cbn. unfold by_value; cbn. rewrite EU. eauto.
      + left. split; [cbn; rewrite EU; auto|]. apply D_bare; cbn; rewrite EU; auto.
      + rewrite D_node by auto. destruct (_ && _).
        * right; left; split; eauto.
        * right; right. split; auto. split; auto. eauto.
  Qed.

  Lemma same_refl x : same aeq x x = true.
  Proof. destruct x; cbn; auto; apply ident_eqb_refl. Qed.
  Lemma same_D rp s rq s' : same aeq (D rp s) (D rq s') = true ->
    (isbare s = true /\ isbare s' = true) \/ (isbare s = false /\ isbare s' = false /\ rp = rq).
  Proof.
    destruct (D_cases rp s) as [[B ->]|[[B [x ->]]|(B & _ & k & cs & -> & ->)]];
    destruct (D_cases rq s') as [[B' ->]|[[B' [x' ->]]|(B' & _ & k' & cs' & -> & ->)]]; cbn [same]; intros H;
      try discriminate; auto.
    all: apply ident_eqb_eq in H; inv H; auto.
  Qed.
  Lemma same_bare rp s rq s' : isbare s = true -> isbare s' = true -> same aeq (D rp s) (D rq s') = true.
  Proof. intros H1 H2. rewrite !D_bare by auto. auto. Qed.

  Lemma D_visible_node rp k cs i c : uisl (Node k cs) = false -> nth_error cs i = Some c ->
    D rp (Node k cs) = PNode (2, rp) k (mapi (fun i c => D (i :: rp) c) 0 cs).
  Proof.
    intros H Hi. rewrite D_node by auto. destruct (Nat.eqb_spec (length cs) 0) as [E|E].
    - destruct cs; [destruct i; discriminate|discriminate].
    - rewrite andb_false_r; auto.
  Qed.

  Lemma pick_D t p : visible uisl t p -> forall rp s, sub t p = Some s ->
    pick (D rp t) p = Ok (D (rev p ++ rp) s).
  Proof.
    induction 1 as [t|k cs i c p H1 H2 _ IH]; intros rp s Hs.
    - cbn in Hs. inv Hs. auto.
    - rewrite (D_visible_node rp k cs i c) by auto. cbn. cbn in Hs. rewrite H2 in Hs.
      rewrite nth_error_mapi, H2. cbn. rewrite (IH _ _ Hs). rewrite <- app_assoc; auto.
  Qed.
  Lemma pick_D_inv p : forall t rp x, pick (D rp t) p = Ok x ->
    visible uisl t p /\ exists s, sub t p = Some s /\ x = D (rev p ++ rp) s.
  Proof.
    induction p as [|i p IH]; intros t rp x H.
    - cbn in H. inv H. split; [constructor|]. exists t; auto.
    - destruct (D_cases rp t) as [[B E]|[[B [v E]]|(B & U & k & cs & -> & E)]]; rewrite E in H;
        cbn in H; try discriminate.
      rewrite nth_error_mapi in H. destruct (nth_error cs i) as [c|] eqn:Hi; cbn in H; [|discriminate].
      destruct (IH _ _ _ H) as (HV & s & Hs & ->). split; [econstructor; eauto|].
      exists s. cbn. rewrite Hi. split; auto. rewrite <- app_assoc; auto.
  Qed.

  (** The two calls of [where] agree on a position. *)
  Lemma leaves_agree s : forall rp,
    mapM remove_leaf_wrapper (pleaves (fun _ => false) (D rp s)) = Ok (pleaves isl (copy1 rp s)) /\
    pdef (fun _ => false) (D rp s) = pdef isl (copy1 rp s).
  Proof.
    assert (HW : forall rp v x, isl v = true \/ (match v with PNone | PNode _ _ _ => False | _ => True end) ->
       D rp x = PWrap (2, rp) v -> v = copy1 rp x ->
       mapM remove_leaf_wrapper (pleaves (fun _ => false) (D rp x)) = Ok (pleaves isl v) /\
       pdef (fun _ => false) (D rp x) = pdef isl v).
    { intros rp v x HV -> _. cbn.
      destruct v; cbn [pleaves pdef]; destruct (isl _); auto; destruct HV as [?|[]]; try discriminate. }
    induction s as [a| |k cs IH] using tree_ind'; intros rp.
    - apply HW; [right; exact I|unfold D; cbn; destruct (isl (PLeaf a)); auto|auto].
    - destruct (uisl TNone) eqn:EU.
      + apply HW; [left; exact EU|apply D_leaf; auto|auto].
      + rewrite D_bare by (cbn; rewrite EU; auto). cbn. unfold by_value; cbn. rewrite EU. auto.
    - destruct (uisl (Node k cs)) eqn:EU.
      + apply HW; [left; unfold by_value; rewrite erase_copy1; auto|apply D_leaf; auto|auto].
      + rewrite D_node by auto. cbn [copy1].
        pose proof (erase_copy1 (Node k cs) rp) as HE. cbn [copy1] in HE.
        destruct (_ && _) eqn:E.
        * cbn [pleaves pdef]. destruct (isl (PDist (1, rp))); auto.
        * cbn [pleaves pdef]. assert (isl (PNode (1, rp) k (mapi (fun i c => copy1 (i :: rp) c) 0 cs)) = false) as ->.
          { unfold by_value. rewrite HE; auto. }
          assert (HH : forall n,
            mapM remove_leaf_wrapper (concat (map (pleaves (fun _ => false)) (mapi (fun i c => D (i :: rp) c) n cs)))
              = Ok (concat (map (pleaves isl) (mapi (fun i c => copy1 (i :: rp) c) n cs))) /\
            map (pdef (fun _ => false)) (mapi (fun i c => D (i :: rp) c) n cs) =
            map (pdef isl) (mapi (fun i c => copy1 (i :: rp) c) n cs)).
          { clear -IH. induction IH as [|c cs Hc _ IHcs]; intros n; cbn; auto.
            destruct (Hc (n :: rp)) as [H1 H2], (IHcs (S n)) as [H3 H4]. split; [|congruence].
            revert H1 H3. generalize (pleaves (fun _ => false) (D (n :: rp) c)) as l.
            generalize (pleaves isl (copy1 (n :: rp) c)) as l'. clear.
            intros l' l H1 H3. apply mapM_Forall2. apply mapM_Forall2 in H1, H3.
            apply Forall2_app; auto. }
          destruct (HH 0) as [HA HB]. split; [auto|congruence].
  Qed.

  Lemma no_mismatch l : existsb (fun '(x, y) => negb (same aeq x y)) (List.combine l l) = false.
  Proof. induction l; cbn; auto. rewrite same_refl; auto. Qed.

  Lemma check_one rp s : check_where aeq isl (copy1 rp s) (D rp s) = Ok tt.
  Proof.
    unfold check_where. destruct (leaves_agree s rp) as [H1 H2]. rewrite H1; cbn [bind].
    rewrite H2, Nat.eqb_refl, no_mismatch.
    assert (treedef_eqb (pdef isl (copy1 rp s)) (pdef isl (copy1 rp s)) = true) as ->
      by (apply treedef_eqb_eq; auto). auto.
  Qed.
  Lemma check_many i k (l : list (path * tree A)) : uisl (Node k (map snd l)) = false ->
    check_where aeq isl (PNode i k (map (fun ps => copy1 (fst ps) (snd ps)) l))
                        (PNode i k (map (fun ps => D (fst ps) (snd ps)) l)) = Ok tt.
  Proof.
    intros HU. unfold check_where. cbn [pleaves pdef].
    assert (isl (PNode i k (map (fun ps : path * tree A => copy1 (fst ps) (snd ps)) l)) = false) as ->.
    { unfold by_value. cbn. rewrite map_map.
      erewrite map_ext; [exact HU|]. intros; apply erase_copy1. }
    assert (H1 : mapM remove_leaf_wrapper (concat (map (pleaves (fun _ => false)) (map (fun ps => D (fst ps) (snd ps)) l)))
      = Ok (concat (map (pleaves isl) (map (fun ps => copy1 (fst ps) (snd ps)) l)))).
    { clear. induction l as [|[rp s] l IH]; cbn; auto. apply mapM_Forall2 in IH. apply mapM_Forall2.
      apply Forall2_app; auto. apply mapM_Forall2. apply leaves_agree. }
    rewrite H1; cbn [bind].
    assert (H2 : map (pdef (fun _ => false)) (map (fun ps => D (fst ps) (snd ps)) l) =
                 map (pdef isl) (map (fun ps => copy1 (fst ps) (snd ps)) l)).
    { rewrite !map_map. apply map_ext. intros [rp s]. apply leaves_agree. }
    rewrite H2, Nat.eqb_refl, no_mismatch.
    match goal with |- context [treedef_eqb ?a ?a] => assert (treedef_eqb a a = true) as ->
      by (apply treedef_eqb_eq; auto) end. auto.
  Qed.

  (** Whether [n] occurs in the dressed tree. *)
  Lemma in_pytree_D t p : visible uisl t p -> forall rp s, sub t p = Some s ->
    in_pytree aeq (D (rev p ++ rp) s) (D rp t) = true.
  Proof.
    induction 1 as [t|k cs i c p H1 H2 _ IH]; intros rp s Hs.
    - cbn in Hs. inv Hs. cbn. destruct (D rp s); cbn; rewrite ?ident_eqb_refl, ?aeq_refl; auto.
    - cbn in Hs. rewrite H2 in Hs. rewrite (D_visible_node rp k cs i c) by auto. cbn [in_pytree].
      destruct (same aeq _ _); auto. apply existsb_exists.
      exists (D (i :: rp) c). split; [apply In_mapi; exists i, c; auto|].
      cbn [rev]. rewrite <- app_assoc. apply IH; auto.
  Qed.
  Lemma in_pytree_fresh k0 ns t : forall rp, in_pytree aeq (PNode (3, []) k0 ns) (D rp t) = false.
  Proof.
    induction t as [a| |k cs IH] using tree_ind'; intros rp;
      (match goal with |- context [D rp ?t] =>
         destruct (D_cases rp t) as [[B E]|[[B [v E]]|(B & U & k' & cs' & EE & E)]]; rewrite E end);
      cbn [in_pytree same]; auto; try discriminate.
    inv EE. cbn. destruct (existsb _ _) eqn:EX; auto.
    apply existsb_exists in EX as (x & Hx & HI). apply In_mapi in Hx as (n & c & Hn & ->).
    rewrite Forall_forall in IH. rewrite (IH c (nth_error_In _ _ Hn)) in HI. discriminate.
  Qed.

  (** Visited positions. *)
  Lemma vis_D d t : forall rp p x,
    In (p, x) (vis aeq d (D rp t)) <->
    exists s, visible uisl t p /\ sub t p = Some s /\ x = D (rev p ++ rp) s /\
      contains aeq d x = true /\
      forall q s', strict_prefix q p -> sub t q = Some s' -> contains aeq d (D (rev q ++ rp) s') = false.
  Proof.
    induction t as [a| |k cs IH] using tree_ind'; intros rp p x.
    - destruct (D_cases rp (Leaf a)) as [[B E]|[[B [v E]]|(B & U & k' & cs' & EE & E)]]; try discriminate.
      split.
      + rewrite E. cbn. destruct (contains aeq d _) eqn:HC; cbn; [|tauto]. intros [EE|[]]. inv EE.
        exists (Leaf a). split; [constructor|]. split; auto. split; [auto|]. split; [auto|].
        intros q s' (i & r & Hq). destruct q; discriminate.
      + intros (s & HV & Hs & -> & HC & _). inv HV. cbn in Hs. inv Hs. cbn [rev app] in *.
        rewrite vis_stop by auto. left; auto.
    - destruct (contains aeq d (D rp TNone)) eqn:HC.
      + rewrite vis_stop by auto. split.
        * intros [EE|[]]. inv EE. exists TNone. split; [constructor|]. split; auto. split; [auto|]. split; [auto|].
          intros q s' (i & r & Hq). destruct q; discriminate.
        * intros (s & HV & Hs & -> & HC' & _). inv HV. cbn in Hs. inv Hs. left; auto.
      + split.
        * intros HI. exfalso. destruct (D rp TNone) eqn:E; cbn in HI; rewrite HC in HI; try destruct HI.
          destruct (D_cases rp TNone) as [[B E']|[[B [v E']]|(B & U & k' & cs' & EE & E')]]; congruence.
        * intros (s & HV & Hs & -> & HC' & _). inv HV. cbn in Hs. inv Hs. cbn [rev app] in HC'. congruence.
    - destruct (contains aeq d (D rp (Node k cs))) eqn:HC.
      + rewrite vis_stop by auto. split.
        * intros [EE|[]]. inv EE. exists (Node k cs). split; [constructor|]. split; auto. split; [auto|]. split; [auto|].
          intros q s' (i & r & Hq). destruct q; discriminate.
        * intros (s & HV & Hs & -> & HC' & HN). destruct p as [|i p].
          -- cbn in Hs. inv Hs. left; auto.
          -- exfalso. specialize (HN [] _ (strict_nil i p) eq_refl). cbn [rev app] in HN. congruence.
      + destruct (D_cases rp (Node k cs)) as [[B E]|[[B [v E]]|(B & U & k' & cs' & EE & E)]]; [discriminate| |].
        * split.
          -- intros HI. exfalso. rewrite E in HI, HC. cbn in HI. rewrite HC in HI. destruct HI.
          -- intros (s & HV & Hs & -> & HC' & _). destruct p as [|i p].
             ++ cbn in Hs; inv Hs. cbn [rev app] in HC'. congruence.
             ++ inv HV. rewrite (D_visible_node rp k cs i c) in E by auto. discriminate.
        * inv EE. rewrite E in *. split.
          -- intros HI. apply vis_node in HI as (n & q & c & -> & Hn & HI); auto.
             rewrite nth_error_mapi in Hn. destruct (nth_error cs' n) as [c0|] eqn:Hc0; cbn in Hn; inv Hn.
             rewrite Forall_forall in IH. apply IH in HI as (s & HV & Hs & -> & HC' & HN); [|eapply nth_error_In; eauto].
             exists s. split; [econstructor; eauto|]. split; [cbn; rewrite Hc0; auto|].
             split; [cbn [rev]; rewrite <- app_assoc; auto|]. split; [auto|].
             intros r s' Hr Hs'. destruct r as [|j r].
             ++ cbn in Hs'. inv Hs'. cbn [rev app]. rewrite E; auto.
             ++ apply strict_prefix_cons in Hr as [-> Hr]. cbn in Hs'. rewrite Hc0 in Hs'.
                cbn [rev]. rewrite <- app_assoc. apply HN; auto.
          -- intros (s & HV & Hs & -> & HC' & HN). destruct p as [|i p].
             ++ cbn in Hs; inv Hs. cbn [rev app] in HC'. rewrite E in HC'. congruence.
             ++ inv HV. cbn in Hs. rewrite H4 in Hs. apply vis_node; auto.
                exists i, p, (D (i :: rp) c). split; auto. rewrite nth_error_mapi, H4. split; auto.
                rewrite Forall_forall in IH. apply IH; [eapply nth_error_In; eauto|].
                exists s. split; [auto|]. split; [auto|]. cbn [rev] in *. rewrite <- app_assoc in *. split; [auto|].
                split; [auto|]. intros q s' Hq Hs'.
                specialize (HN (i :: q) s'). cbn [rev] in HN. rewrite <- app_assoc in HN. apply HN.
                ** apply strict_prefix_cons; auto.
                ** cbn. rewrite H4; auto.
  Qed.
End Select.

(** A list contains exactly one element satisfying a test. *)
Lemma filter_one_iff {V} (l : list (path * V)) (f : V -> bool) : pfree l ->
  length (List.filter f (map snd l)) = 1 <->
  exists p x, In (p, x) l /\ f x = true /\ forall q y, In (q, y) l -> f y = true -> q = p.
Proof.
  intros HP.
  assert (HZ : forall l : list (path * V), length (List.filter f (map snd l)) = 0 <->
      forall q y, In (q, y) l -> f y = false).
  { clear. induction l as [|[p x] l IH]; cbn; [split; [intros _ ? ? []|auto]|].
    destruct (f x) eqn:E; cbn.
    - split; [discriminate|]. intros H. rewrite (H p x) in E; auto. discriminate.
    - rewrite IH. split; [intros H q y [EE|HI]; [inv EE; auto|eauto]|eauto]. }
  induction l as [|[p x] l IH]; cbn.
  - split; [discriminate|intros (? & ? & [] & _)].
  - assert (HPl : pfree l).
    { intros i j p0 s q r Hi Hj Hpq. assert (S i = S j); [|lia]. eapply (HP (S i) (S j)); eauto. }
    destruct (f x) eqn:E; cbn.
    + split.
      * intros H. injection H as H. rewrite HZ in H. exists p, x. split; auto. split; auto.
        intros q y [EE|HI] HF; [inv EE; auto|]. rewrite (H q y) in HF; auto; discriminate.
      * intros (p' & x' & HI & HF & HU). f_equal. apply HZ. intros q y Hq.
        destruct (f y) eqn:EY; auto. exfalso.
        assert (q = p') by (eapply HU; eauto). assert (p = p') by (eapply HU; eauto). subst.
        apply In_nth_error in Hq as [n Hn].
        assert (0 = S n); [|discriminate]. eapply (HP 0 (S n)); cbn; eauto. apply prefix_refl.
    + rewrite (IH HPl). split.
      * intros (p' & x' & HI & HF & HU). exists p', x'. split; auto. split; auto.
        intros q y [EE|Hq] HFy; [inv EE; congruence|eauto].
      * intros (p' & x' & [EE|HI] & HF & HU); [inv EE; congruence|].
        exists p', x'. split; auto. split; auto. eauto.
Qed.
