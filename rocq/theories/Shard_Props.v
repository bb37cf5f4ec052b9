(** C95: the predicates on leaves; C96: [filter_shard]. *)
From Verif Require Import Leafwise Tree_Rel.
From Verif Require Export Shard_Model.

(** ** C95 *)
(** Arrays are array-like. *)
Theorem C95_array_like : forall o, is_array o = true -> is_array_like o = true.
Proof. intros [[d|d|d| | | | |] j]; cbn; intros H; auto; discriminate. Qed.
Print Assumptions C95_array_like.

(** What array-like means: arrays, Python numbers, and whatever has [__jax_array__]. *)
Theorem C95_array_like_iff : forall k j, is_array_like (Obj k j) = true <->
  is_array (Obj k j) = true \/ k = KBool \/ k = KInt \/ k = KFloat \/ k = KComplex \/ j <> None.
Proof.
  intros k j. destruct k; cbn; split; intros H; auto 8; try tauto.
  - destruct j; [right; right; right; right; right; discriminate|discriminate].
  - destruct j; [reflexivity|]. intuition discriminate.
Qed.
Print Assumptions C95_array_like_iff.

(** Inexact arrays are the arrays whose dtype is inexact, in the sense of the library they belong to. *)
Definition dtype_of (o : obj) : option dtype :=
  match obj_kind o with KJax d | KNpArray d | KNpGeneric d => Some d | _ => None end.
Definition from_numpy (o : obj) : bool := match obj_kind o with KNpArray _ | KNpGeneric _ => true | _ => false end.
Theorem C95_inexact : forall o, is_inexact_array o = true <->
  is_array o = true /\ exists d, dtype_of o = Some d /\ (d = DFloat \/ d = DComplex \/ from_numpy o = false /\ d = DExtFloat).
Proof.
  intros [k j]. unfold is_inexact_array, is_array, dtype_of, from_numpy. cbn.
  destruct k as [d|d|d| | | | |]; try (split; [discriminate|intros [H _]; discriminate]);
    destruct d; cbn; split; intros H; try discriminate;
    try (split; [reflexivity|eexists; split; [reflexivity|auto]]); try reflexivity;
    destruct H as [_ (d & E & H)]; inversion E; subst; intuition discriminate.
Qed.
Print Assumptions C95_inexact.

(** The array-like version. It looks at what [__jax_array__] returns, once. *)
Definition py_inexact (o : obj) : bool := match obj_kind o with KFloat | KComplex => true | _ => false end.
Theorem C95_inexact_like : forall k j,
  is_inexact_array_like (Obj k j) =
  match j with
  | None => Ok (is_inexact_array (Obj k j) || py_inexact (Obj k j))
  | Some (Ok o) => Ok (is_inexact_array o || py_inexact o)
  | Some (Err e) => Err e
  end.
Proof.
  intros k [[[k' j']|e]|]; cbn; try reflexivity; unfold is_inexact_array, py_inexact; cbn;
    [destruct k' as [d|d|d| | | | |]|destruct k as [d|d|d| | | | |]]; try reflexivity; destruct d; reflexivity.
Qed.
Print Assumptions C95_inexact_like.
Theorem C95_inexact_array_like : forall o, is_inexact_array_like o = Ok true -> is_array_like o = true.
Proof.
  intros [k [r|]] H; [unfold is_array_like; apply orb_true_r|]. rewrite C95_inexact_like in H. inversion H as [H'].
  destruct k; cbn in *; auto; discriminate.
Qed.
Print Assumptions C95_inexact_array_like.
Theorem C95_inexact_agree : forall k o, is_inexact_array (Obj k None) = true -> o = Obj k None ->
  is_inexact_array_like o = Ok true /\ is_array_like o = true.
Proof.
  intros k o H ->. assert (E : is_inexact_array_like (Obj k None) = Ok true) by (rewrite C95_inexact_like, H; reflexivity).
  split; [exact E|]. apply C95_inexact_array_like. exact E.
Qed.
Print Assumptions C95_inexact_agree.

(** Converting an array between NumPy and JAX keeps its dtype, but not always the answer: exactly the
    extended floating-point types are inexact as JAX arrays and not as NumPy arrays. A model whose
    bfloat16 weights are NumPy arrays has, by [is_inexact_array], no parameters. *)
Theorem C95_libraries_refuted : forall d,
  (is_inexact_array (Obj (KJax d) None) = is_inexact_array (Obj (KNpArray d) None) <-> d <> DExtFloat) /\
  is_inexact_array (Obj (KJax DExtFloat) None) = true /\ is_inexact_array (Obj (KNpArray DExtFloat) None) = false.
Proof. intros d. split; [destruct d; cbn; split; congruence|split; reflexivity]. Qed.
Print Assumptions C95_libraries_refuted.
(** The predicates do not agree on what is array-like: an object whose [__jax_array__] raises, such as
    a class defining it for its instances, is array-like, and asking for inexactness raises. *)
Theorem C95_total_refuted : exists o, is_array_like o = true /\ is_inexact_array_like o = Err TypeError.
Proof. exists (Obj KObject (Some (Err TypeError))). split; reflexivity. Qed.
Print Assumptions C95_total_refuted.
Example C95_ex : map is_array [Obj (KJax DInt) None; Obj (KNpGeneric DOther) None; Obj KFloat None; Obj KObject None] = [true; true; false; false]
  /\ is_inexact_array_like (Obj KObject (Some (Ok (Obj (KJax DFloat) None)))) = Ok true
  /\ is_inexact_array (Obj KObject (Some (Ok (Obj (KJax DFloat) None)))) = false
  /\ is_inexact_array_like (Obj KInt None) = Ok false.
Proof. repeat split. Qed.

(** ** C96 *)
Section Spec.
  Context {L S D : Type}.
  Variable is_arr : L -> bool.
  Variable single : D -> S.
  Variable place : S -> L -> res L.
  Notation T := (tree L).

  (** The tree of shardings is a prefix of [x]. [None] there stands for no array. *)
  Fixpoint prefix_of (p : tree S) (x : T) : Prop :=
    match p with
    | Leaf _ => True
    | TNone => x = TNone \/ exists a, x = Leaf a /\ is_arr a = false
    | Node k ps => exists xs, x = Node k xs /\
        (fix all ps xs : Prop := match ps, xs with
                                 | [], [] => True
                                 | p :: ps, x :: xs => prefix_of p x /\ all ps xs
                                 | _, _ => False
                                 end) ps xs
    end.
  (** Each leaf of [x] with the sharding above it. *)
  Fixpoint assigned (p : tree S) (x : T) (x' : tree (L * option S)) : Prop :=
    match p with
    | Leaf s => x' = tmap no_leaf (fun y => match y with Leaf a => Leaf (a, Some s) | _ => TNone end) x
    | TNone => x = TNone /\ x' = TNone \/ exists a, x = Leaf a /\ is_arr a = false /\ x' = Leaf (a, None)
    | Node k ps => exists xs xs', x = Node k xs /\ x' = Node k xs' /\
        (fix all ps xs xs' : Prop := match ps, xs, xs' with
                                     | [], [], [] => True
                                     | p :: ps, x :: xs, x' :: xs' => assigned p x x' /\ all ps xs xs'
                                     | _, _, _ => False
                                     end) ps xs xs'
    end.
  (** Arrays are placed, everything else stays. *)
  Definition placed (a : L * option S) (b : L) : Prop :=
    if is_arr (fst a) then exists s, snd a = Some s /\ place s (fst a) = Ok b else b = fst a.
  Definition shardings (t : target S D) : tree S := match t with ToDevice d => Leaf (single d) | ToShardings p => p end.

  Let dyn (x : T) : T := lw (fun a => if is_arr a then Leaf a else TNone) x.
  Let dyn' (x' : tree (L * option S)) : T := lw (fun q => if is_arr (fst q) then Leaf (fst q) else TNone) x'.
  Let sta' (x' : tree (L * option S)) : T := lw (fun q => if is_arr (fst q) then TNone else Leaf (fst q)) x'.
  Let axes (x' : tree (L * option S)) : tree S :=
    lw (fun q => if is_arr (fst q) then match snd q with Some s => Leaf s | None => TNone end else TNone) x'.
  Definition good (q : L * option S) : Prop := is_arr (fst q) = true -> snd q <> None.

  Lemma assigned_fst p : forall x x', assigned p x x' -> x = lw (fun q => Leaf (fst q)) x'.
  Proof.
    induction p as [s| |k ps IH] using tree_ind'; intros x x' H; cbn [assigned] in H.
    - rewrite tmap_lw in H. subst x'. rewrite lw_lw. cbn. symmetry. apply lw_id.
    - destruct H as [[-> ->]|(a & -> & _ & ->)]; reflexivity.
    - destruct H as (xs & xs' & -> & -> & H). cbn [lw]. f_equal.
      revert xs xs' H. induction IH as [|p ps Hp _ IHps]; intros [|x xs] [|x' xs'] H; try contradiction; cbn; [reflexivity|].
      destruct H as [H1 H2]. f_equal; auto.
  Qed.
  Lemma assigned_good p : forall x x', assigned p x x' -> forall q, In q (labels x') -> good q.
  Proof.
    induction p as [s| |k ps IH] using tree_ind'; intros x x' H q Hq; cbn [assigned] in H.
    - subst x'. rewrite tmap_lw, labels_lw in Hq. apply in_flat_map in Hq as (a & _ & [<-|[]]). intros _. cbn. discriminate.
    - destruct H as [[-> ->]|(a & -> & Ha & ->)]; [destruct Hq|]. destruct Hq as [<-|[]]. intros Hc. cbn in Hc. congruence.
    - destruct H as (xs & xs' & -> & -> & H). cbn [labels] in Hq.
      revert xs xs' H Hq. induction IH as [|p ps Hp _ IHps]; intros [|x xs] [|x' xs'] H Hq; try contradiction.
      destruct H as [H1 H2]. cbn in Hq. apply in_app_or in Hq as [Hq|Hq]; eauto.
  Qed.
  Lemma flatten_axes_node k (ps : list (tree S)) k' (xs : list T) : flatten_axes (Node k ps) (dyn (Node k' xs)) =
    if k =? k' then rmap (Node k) (zipM flatten_axes ps (map dyn xs)) else Err ValueError.
  Proof. reflexivity. Qed.
  Lemma flatten_axes_ok p : forall x, prefix_of p x ->
    exists x', assigned p x x' /\ flatten_axes p (dyn x) = Ok (axes x').
  Proof.
    induction p as [s| |k ps IH] using tree_ind'; intros x H; cbn [prefix_of] in H.
    - eexists. split; [reflexivity|]. unfold flatten_axes, axes, dyn. cbn [tmap2 no_leaf]. rewrite !tmap_lw, !lw_lw.
      f_equal. apply lw_ext. intros a. cbn. destruct (is_arr a); reflexivity.
    - destruct H as [->|(a & -> & Ha)].
      + exists TNone. split; [left; auto|reflexivity].
      + exists (Leaf (a, None)). split; [right; exists a; auto|]. unfold flatten_axes, axes, dyn. cbn. rewrite Ha. reflexivity.
    - destruct H as (xs & -> & H).
      enough (exists xs', (fix all ps xs xs' : Prop := match ps, xs, xs' with
                                     | [], [], [] => True
                                     | p :: ps, x :: xs, x' :: xs' => assigned p x x' /\ all ps xs xs'
                                     | _, _, _ => False
                                     end) ps xs xs' /\ zipM flatten_axes ps (map dyn xs) = Ok (map axes xs')) as (xs' & Ha & Hz).
      { exists (Node k xs'). split; [exists xs, xs'; auto|].
        rewrite flatten_axes_node, Nat.eqb_refl, Hz. reflexivity. }
      revert xs H. induction IH as [|p ps Hp _ IHps]; intros [|x xs] H; try contradiction.
      + exists []. split; [exact I|reflexivity].
      + destruct H as [H1 H2]. destruct (Hp x H1) as (x' & Ha & Hx). destruct (IHps xs H2) as (xs' & Hb & Hxs).
        exists (x' :: xs'). split; [split; auto|]. cbn. rewrite Hx. cbn. rewrite Hxs. reflexivity.
  Qed.
  Lemma zipM_flatten_err ps : Forall (fun p => forall x, prefix_of p x \/ ~ prefix_of p x /\ flatten_axes p (dyn x) = Err ValueError) ps ->
    forall xs, (fix all ps xs : Prop := match ps, xs with
                                 | [], [] => True
                                 | p :: ps, x :: xs => prefix_of p x /\ all ps xs
                                 | _, _ => False
                                 end) ps xs \/
      ~ (fix all ps xs : Prop := match ps, xs with
                                 | [], [] => True
                                 | p :: ps, x :: xs => prefix_of p x /\ all ps xs
                                 | _, _ => False
                                 end) ps xs /\ zipM flatten_axes ps (map dyn xs) = Err ValueError.
  Proof.
    induction 1 as [|p ps Hp _ IH]; intros [|x xs]; auto.
    destruct (Hp x) as [H1|[H1 E]].
    - destruct (IH xs) as [H2|[H2 E2]]; [left; auto|right]. split; [intros [_ H]; auto|].
      destruct (flatten_axes_ok p x H1) as (x' & _ & E1). cbn. rewrite E1. cbn. rewrite E2. reflexivity.
    - right. split; [intros [H _]; auto|]. cbn. rewrite E. reflexivity.
  Qed.
  Lemma flatten_axes_err p : forall x, prefix_of p x \/ ~ prefix_of p x /\ flatten_axes p (dyn x) = Err ValueError.
  Proof.
    induction p as [s| |k ps IH] using tree_ind'; intros x.
    - left. exact I.
    - destruct x as [a| |k cs]; cbn.
      + destruct (is_arr a) eqn:E; [right|left; right; exists a; auto].
        split; [intros [H|(b & H & Hb)]; congruence|reflexivity].
      + left; auto.
      + right. split; [intros [H|(b & H & _)]; congruence|reflexivity].
    - destruct x as [a| |k' xs].
      + right. split; [intros (xs & H & _); discriminate|]. unfold flatten_axes, dyn. cbn. destruct (is_arr a); reflexivity.
      + right. split; [intros (xs & H & _); discriminate|reflexivity].
      + destruct (Nat.eqb_spec k k') as [<-|Hk].
        * destruct (zipM_flatten_err ps IH xs) as [H|[H E]].
          -- left. exists xs. auto.
          -- right. split; [intros (ys & Ey & Hy); injection Ey as <-; auto|].
             rewrite flatten_axes_node, Nat.eqb_refl, E. reflexivity.
        * right. split; [intros (ys & Ey & Hy); congruence|]. rewrite flatten_axes_node.
          destruct (Nat.eqb_spec k k'); [contradiction|reflexivity].
  Qed.

  Definition put (s : tree S) (y : T) : res T := match s, y with Leaf s, Leaf a => rmap Leaf (place s a) | _, _ => Err TypeError end.
  Definition fails (q : L * option S) (e : exn) : Prop := is_arr (fst q) = true /\ exists s, snd q = Some s /\ place s (fst q) = Err e.
  Lemma fails_not_placed (x' : tree (L * option S)) y q e : trel placed x' y -> In q (labels x') -> fails q e -> False.
  Proof.
    intros HT Hq (Ha & s & Es & Ep). pose proof (trel_leaves _ _ _ HT) as HL. rewrite !leaves_labels in HL.
    assert (HX : forall l r, Forall2 (lrel placed) (map Leaf l) (map Leaf r) -> In q l -> exists b, placed q b).
    { clear. induction l as [|z l IH]; intros [|w r] H Hi; try contradiction; cbn in H; inversion H as [|u v l1 r1 Hu Hv]; subst.
      inversion Hu; subst. destruct Hi as [->|Hi]; eauto. }
    destruct (HX _ _ HL Hq) as (b & Hb). unfold placed in Hb. rewrite Ha in Hb. destruct Hb as (s' & Es' & Hb). congruence.
  Qed.
  (** The first leaf that cannot be placed. *)
  Definition first_fails (l : list (L * option S)) (e : exn) : Prop :=
    exists l1 q l2, l = l1 ++ q :: l2 /\ fails q e /\ forall q' e', In q' l1 -> ~ fails q' e'.
  Lemma first_fails_app l r e : first_fails l e -> first_fails (l ++ r) e.
  Proof. intros (l1 & q & l2 & -> & H). exists l1, q, (l2 ++ r). rewrite <- app_assoc. auto. Qed.
  Lemma first_fails_later l r e : (forall q e', In q l -> ~ fails q e') -> first_fails r e -> first_fails (l ++ r) e.
  Proof.
    intros Hl (l1 & q & l2 & -> & H1 & H2). exists (l ++ l1), q, l2. rewrite <- app_assoc. split; [reflexivity|split; [auto|]].
    intros q' e' Hi. apply in_app_or in Hi as [Hi|Hi]; eauto.
  Qed.
  Lemma fails_fun q e e' : fails q e -> fails q e' -> e = e'.
  Proof. intros (_ & s & E & H) (_ & s' & E' & H'). congruence. Qed.
  Lemma first_fails_fun l e e' : first_fails l e -> first_fails l e' -> e = e'.
  Proof.
    intros (l1 & q & l2 & -> & F & N) (m1 & p & m2 & E & F' & N'). revert m1 E N'. induction l1 as [|z l1 IH]; intros [|w m1] E N'; cbn in E.
    - injection E as <- _. exact (fails_fun _ _ _ F F').
    - injection E as -> _. exfalso. apply (N' w e (or_introl eq_refl) F).
    - injection E as -> _. exfalso. apply (N p e' (or_introl eq_refl) F').
    - injection E as <- E. apply (IH (fun q' e' h => N q' e' (or_intror h)) m1 E (fun q' e' h => N' q' e' (or_intror h))).
  Qed.
  Lemma put_all (x' : tree (L * option S)) : (forall q, In q (labels x') -> good q) ->
    (exists y, trel placed x' y /\
       tmap2 no_leaf put (axes x') (dyn' x') = Ok (lw (fun q => if is_arr (fst q) then match snd q with Some s => match place s (fst q) with Ok b => Leaf b | Err _ => TNone end | None => TNone end else TNone) x') /\
       y = lw (fun q => if is_arr (fst q) then match snd q with Some s => match place s (fst q) with Ok b => Leaf b | Err _ => TNone end | None => TNone end else Leaf (fst q)) x')
    \/ (exists e, first_fails (labels x') e /\ tmap2 no_leaf put (axes x') (dyn' x') = Err e).
  Proof.
    unfold axes, dyn'. induction x' as [q| |k cs IH] using tree_ind'; intros HG.
    - specialize (HG q (or_introl eq_refl)). unfold good in HG. destruct q as [a so]. cbn [fst snd lw] in *.
      destruct (is_arr a) eqn:Ea.
      + destruct so as [s|]; [|exfalso; apply HG; auto]. destruct (place s a) as [b|e] eqn:Ep.
        * left. exists (Leaf b). split; [constructor; unfold placed; cbn; rewrite Ea; eauto|]. cbn. rewrite Ep. auto.
        * right. exists e. split; [exists [], (a, Some s), []; split; [reflexivity|split; [unfold fails; cbn; eauto|intros q' e' []]]|]. cbn. rewrite Ep. reflexivity.
      + left. exists (Leaf a). split; [constructor; unfold placed; cbn; rewrite Ea; reflexivity|]. auto.
    - left. exists TNone. split; [constructor|auto].
    - cbn [lw tmap2 no_leaf labels] in *. rewrite Nat.eqb_refl.
      enough ((exists ys, Forall2 (trel placed) cs ys /\
         zipM (tmap2 no_leaf put) (map (lw (fun q => if is_arr (fst q) then match snd q with Some s => Leaf s | None => TNone end else TNone)) cs)
              (map (lw (fun q => if is_arr (fst q) then Leaf (fst q) else TNone)) cs) =
           Ok (map (lw (fun q => if is_arr (fst q) then match snd q with Some s => match place s (fst q) with Ok b => Leaf b | Err _ => TNone end | None => TNone end else TNone)) cs) /\
         ys = map (lw (fun q => if is_arr (fst q) then match snd q with Some s => match place s (fst q) with Ok b => Leaf b | Err _ => TNone end | None => TNone end else Leaf (fst q))) cs)
        \/ (exists e, first_fails (concat (map labels cs)) e /\
         zipM (tmap2 no_leaf put) (map (lw (fun q => if is_arr (fst q) then match snd q with Some s => Leaf s | None => TNone end else TNone)) cs)
              (map (lw (fun q => if is_arr (fst q) then Leaf (fst q) else TNone)) cs) = Err e)) as [(ys & H1 & H2 & H3)|(e & H1 & H3)].
      + left. exists (Node k ys). split; [constructor; auto|]. rewrite H2. split; [reflexivity|congruence].
      + right. exists e. rewrite H3. auto.
      + induction IH as [|c cs Hc _ IHcs].
        * left. exists []. split; [constructor|split; reflexivity].
        * destruct Hc as [(y & A1 & A2 & A3)|(e & A1 & A3)]; [intros q Hq; apply HG; cbn; apply in_or_app; auto| |].
          -- destruct IHcs as [(ys & B1 & B2 & B3)|(e & B1 & B3)]; [intros q Hq; apply HG; cbn; apply in_or_app; auto| |].
             ++ left. exists (y :: ys). split; [constructor; auto|]. cbn [map zipM]. rewrite A2. cbn [bind]. rewrite B2. split; [reflexivity|]. cbn. congruence.
             ++ right. exists e. split; [apply (first_fails_later (labels c)); [intros q e' Hq Hf; exact (fails_not_placed c y q e' A1 Hq Hf)|exact B1]|]. cbn [map zipM]. rewrite A2. cbn [bind]. rewrite B3. reflexivity.
          -- right. exists e. split; [apply (first_fails_app (labels c)); exact A1|]. cbn [map zipM]. rewrite A3. reflexivity.
  Qed.

  Lemma shard_cases x t :
    (exists x' y, assigned (shardings t) x x' /\ trel placed x' y /\ filter_shard is_arr single place x t = Ok y) \/
    (exists x' e, assigned (shardings t) x x' /\ first_fails (labels x') e /\ filter_shard is_arr single place x t = Err e) \/
    (~ prefix_of (shardings t) x /\ filter_shard is_arr single place x t = Err ValueError).
  Proof.
    unfold filter_shard. rewrite partition_lw. cbn [bind]. fold (dyn x). fold (shardings t). unfold constrain.
    destruct (flatten_axes_err (shardings t) x) as [HP|[HP E]]; [|right; right; split; auto; rewrite E; reflexivity].
    destruct (flatten_axes_ok _ x HP) as (x' & HA & E). rewrite E. cbn [bind]. pose proof (assigned_fst _ _ _ HA) as HF.
    assert (HD : dyn x = dyn' x').
    { unfold dyn, dyn'. rewrite HF, lw_lw. apply lw_ext. reflexivity. }
    rewrite HD. change (tmap2 no_leaf _ (axes x') (dyn' x')) with (tmap2 no_leaf put (axes x') (dyn' x')).
    destruct (put_all x' (assigned_good _ _ _ HA)) as [(y & H1 & H2 & H3)|(e & H1 & H3)].
    - left. exists x', y. split; [auto|split; [auto|]]. rewrite H2. cbn [bind].
      replace (lw (fun a => if is_arr a then TNone else Leaf a) x) with (sta' x').
      2: { unfold sta'. rewrite HF, lw_lw. apply lw_ext. reflexivity. }
      unfold sta'. match goal with |- eqx_combine _ [lw ?f _; lw ?g _] = _ => refine (eq_trans (combine_lw f [g] x' _) _) end.
      { intros [a so]. cbn. destruct (is_arr a); cbn; auto. destruct so as [s|]; cbn; auto. destruct (place s a); cbn; auto. }
      rewrite H3. f_equal. apply lw_ext_in. intros [a so] Hq. pose proof (assigned_good _ _ _ HA _ Hq) as HG. unfold good in HG. cbn in *.
      destruct (is_arr a) eqn:Ea; [|reflexivity]. destruct so as [s|]; [|exfalso; apply HG; auto].
      destruct (place s a) eqn:Ep; [reflexivity|].
      exfalso. clear - H1 H3 Hq Ea Ep. pose proof (trel_leaves _ _ _ H1) as HL. rewrite !leaves_labels in HL.
      assert (HX : forall l r, Forall2 (lrel placed) (map Leaf l) (map Leaf r) -> In (a, Some s) l -> exists b, placed (a, Some s) b).
      { clear. induction l as [|z l IH]; intros [|w r] H Hi; try contradiction; cbn in H; inversion H as [|u v l1 r1 Hu Hv]; subst.
        inversion Hu; subst. destruct Hi as [->|Hi]; eauto. }
      destruct (HX _ _ HL Hq) as (b & Hb). unfold placed in Hb. cbn in Hb. rewrite Ea in Hb. destruct Hb as (s' & Es & Hb). congruence.
    - right. left. exists x', e. rewrite H3. auto.
  Qed.
  Lemma assigned_fun p : forall x x1 x2, assigned p x x1 -> assigned p x x2 -> x1 = x2.
  Proof.
    induction p as [s| |k ps IH] using tree_ind'; intros x x1 x2 H1 H2; cbn [assigned] in *.
    - congruence.
    - destruct H1 as [[-> ->]|(a & -> & _ & ->)], H2 as [[E ->]|(b & E & _ & ->)]; congruence.
    - destruct H1 as (xs & xs1 & -> & -> & H1), H2 as (ys & xs2 & E & -> & H2). injection E as <-. f_equal.
      revert xs xs1 xs2 H1 H2. induction IH as [|p ps Hp _ IHps]; intros [|x xs] [|y1 xs1] [|y2 xs2] H1 H2; try contradiction; auto.
      destruct H1 as [A1 A2], H2 as [B1 B2]. f_equal; eauto.
  Qed.
  Lemma assigned_prefix p : forall x x', assigned p x x' -> prefix_of p x.
  Proof.
    induction p as [s| |k ps IH] using tree_ind'; intros x x' H; cbn [assigned prefix_of] in *; auto.
    - destruct H as [[-> _]|(a & -> & Ha & _)]; [auto|right; eauto].
    - destruct H as (xs & xs' & -> & -> & H). exists xs. split; auto.
      revert xs xs' H. induction IH as [|p ps Hp _ IHps]; intros [|x xs] [|x' xs'] H; try contradiction; auto.
      destruct H as [H1 H2]. split; [exact (Hp x x' H1)|exact (IHps xs xs' H2)].
  Qed.
  Lemma placed_fun q b c : placed q b -> placed q c -> b = c.
  Proof. unfold placed. destruct (is_arr (fst q)); [intros (s & E & H) (s' & E' & H'); congruence|congruence]. Qed.
  Lemma trel_fun {A B} (R : A -> B -> Prop) : (forall a b c, R a b -> R a c -> b = c) -> forall t u v, trel R t u -> trel R t v -> u = v.
  Proof.
    intros HR. induction t as [a| |k cs IH] using tree_ind'; intros u v H1 H2.
    - inversion H1; inversion H2; subst. f_equal. eapply HR; eauto.
    - inversion H1; inversion H2; reflexivity.
    - inversion H1 as [| |k1 cs1 ds1 F1]; inversion H2 as [| |k2 cs2 ds2 F2]; subst. f_equal. clear H1 H2.
      revert ds1 ds2 F1 F2. induction IH as [|c cs Hc _ IHcs]; intros ds1 ds2 F1 F2;
        inversion F1 as [|p q l r P1 P2]; inversion F2 as [|p' q' l' r' Q1 Q2]; subst; auto. f_equal; eauto.
  Qed.
End Spec.

(** The result has each array placed by the sharding above it, and is otherwise the argument. *)
Theorem C96_exact : forall {L S D} (is_arr : L -> bool) (single : D -> S) place x t y,
  filter_shard is_arr single place x t = Ok y <->
  exists x', assigned is_arr (shardings single t) x x' /\ trel (placed is_arr place) x' y.
Proof.
  intros L S D is_arr single place x t y. destruct (shard_cases is_arr single place x t) as [(x' & z & H1 & H2 & H3)|[(x' & e & H1 & H2 & H4)|[H1 H2]]].
  - rewrite H3. split.
    + intros E. injection E as <-. eauto.
    + intros (x2 & A & B). rewrite (assigned_fun _ _ _ _ _ A H1) in B. f_equal.
      exact (trel_fun _ (placed_fun is_arr place) _ _ _ H2 B).
  - rewrite H4. split; [discriminate|]. intros (x2 & A & B). rewrite (assigned_fun _ _ _ _ _ A H1) in B.
    destruct H2 as (l1 & q & l2 & El & Hf & _). exfalso. refine (fails_not_placed _ _ _ _ _ e B _ Hf).
    rewrite El. apply in_or_app. right. left. reflexivity.
  - rewrite H2. split; [discriminate|]. intros (x2 & A & _). exfalso. apply H1. exact (assigned_prefix _ _ _ _ A).
Qed.
Print Assumptions C96_exact.

(** When it raises: the shardings are no prefix, or, all shardings known, some array cannot be placed;
    then the error is that of the first such array. *)
Theorem C96_error : forall {L S D} (is_arr : L -> bool) (single : D -> S) place x t e,
  filter_shard is_arr single place x t = Err e <->
  ~ prefix_of is_arr (shardings single t) x /\ e = ValueError \/
  exists x', assigned is_arr (shardings single t) x x' /\ first_fails is_arr place (labels x') e.
Proof.
  intros L S D is_arr single place x t e. destruct (shard_cases is_arr single place x t) as [(x' & z & H1 & H2 & H3)|[(x' & e' & H1 & H2 & H4)|[H1 H2]]].
  - rewrite H3. split; [discriminate|]. intros [[HP _]|(x2 & A & (l1 & q & l2 & El & Hf & _))]; exfalso.
    + apply HP. exact (assigned_prefix _ _ _ _ H1).
    + rewrite (assigned_fun _ _ _ _ _ A H1) in El. refine (fails_not_placed _ _ _ _ _ e H2 _ Hf).
      rewrite El. apply in_or_app. right. left. reflexivity.
  - rewrite H4. split.
    + intros E. injection E as <-. right. eauto.
    + intros [[HP _]|(x2 & A & B)]; [exfalso; apply HP; exact (assigned_prefix _ _ _ _ H1)|].
      rewrite (assigned_fun _ _ _ _ _ A H1) in B. f_equal. exact (first_fails_fun _ _ _ _ _ H2 B).
  - rewrite H2. split.
    + intros E. injection E as <-. left. auto.
    + intros [[_ ->]|(x2 & A & _)]; [reflexivity|]. exfalso. apply H1. exact (assigned_prefix _ _ _ _ A).
Qed.
Print Assumptions C96_error.

(** One device or one sharding fits every tree. Values do not change if placing does not change them. *)
Theorem C96_values : forall {L S D} (is_arr : L -> bool) (single : D -> S) place (value : L -> nat) x t y,
  (forall s a b, place s a = Ok b -> value b = value a) ->
  filter_shard is_arr single place x t = Ok y ->
  trel (fun a b => value b = value a /\ (is_arr a = false -> b = a)) x y.
Proof.
  intros L S D is_arr single place value x t y HV H. apply C96_exact in H as (x' & HA & HT).
  rewrite (assigned_fst _ _ _ _ HA). clear HA. revert y HT. induction x' as [q| |k cs IH] using tree_ind'; intros y HT.
  - inversion HT; subst. constructor. unfold placed in *. destruct (is_arr (fst q)).
    + match goal with H : exists _, _ |- _ => destruct H as (s & _ & Hp) end. split; [eauto|discriminate].
    + subst. auto.
  - inversion HT. constructor.
  - inversion HT as [| |k1 cs1 ds1 F1]; subst. cbn [lw]. constructor. clear HT. revert ds1 F1.
    induction IH as [|c cs Hc _ IHcs]; intros ds F; inversion F as [|p r l' r' P1 P2]; subst; cbn; constructor; auto.
Qed.
Print Assumptions C96_values.
Theorem C96_everywhere : forall {L S D} (is_arr : L -> bool) (single : D -> S) place x s y,
  filter_shard is_arr single place x (ToShardings (Leaf s)) = Ok y <->
  trel (fun a b => if is_arr a then place s a = Ok b else b = a) x y.
Proof.
  intros L S D is_arr single place x s y. rewrite C96_exact. cbn [assigned shardings].
  assert (HX : forall y, trel (placed is_arr place) (tmap no_leaf (fun z => match z with Leaf a => Leaf (a, Some s) | _ => TNone end) x) y <->
    trel (fun a b => if is_arr a then place s a = Ok b else b = a) x y).
  { clear y. induction x as [a| |k cs IH] using tree_ind'; intros y.
    - cbn. split; intros H; inversion H; subst; constructor; unfold placed in *; cbn in *; destruct (is_arr a); auto.
      + match goal with H : exists _, _ |- _ => destruct H as (s' & E & Hp) end. congruence.
      + eauto.
    - cbn. split; intros H; inversion H; constructor.
    - cbn [tmap no_leaf]. split; intros H; inversion H as [| |k1 cs1 ds1 F1]; subst; constructor; clear H; revert ds1 F1;
        (induction IH as [|c cs Hc _ IHcs]; intros ds F; inversion F as [|p r l' r' P1 P2]; subst; cbn; constructor; [apply Hc; auto|apply IHcs; auto]). }
  rewrite <- HX. split; [intros (x' & -> & H); exact H|eauto].
Qed.
Print Assumptions C96_everywhere.

(** Leaves: [(n, s)] is an array of value [n] on [s]; an array of value 0 fits only sharding 0. *)
Definition ex_arr (l : nat * option nat) : bool := match snd l with Some _ => true | None => false end.
Definition ex_place (s : nat) (l : nat * option nat) : res (nat * option nat) :=
  if Nat.eqb (fst l) 0 && negb (Nat.eqb s 0) then Err ValueError else Ok (fst l, Some s).
Example C96_ex : filter_shard (D := nat) ex_arr (fun d => d) ex_place
    (Node 0 [Node 1 [Leaf (5, Some 0); Leaf (6, None)]; Leaf (0, Some 3)]) (ToShardings (Node 0 [Leaf 7; Leaf 0]))
  = Ok (Node 0 [Node 1 [Leaf (5, Some 7); Leaf (6, None)]; Leaf (0, Some 0)]).
Proof. reflexivity. Qed.
Example C96_ex_device : filter_shard (S := nat) ex_arr (fun d => d) ex_place
    (Node 0 [Leaf (6, None); TNone; Leaf (5, Some 3)]) (ToDevice 9)
  = Ok (Node 0 [Leaf (6, None); TNone; Leaf (5, Some 9)]).
Proof. reflexivity. Qed.
Example C96_ex_refused : filter_shard (D := nat) ex_arr (fun d => d) ex_place (Leaf (5, Some 0)) (ToShardings (Node 0 [Leaf 7])) = Err ValueError.
Proof. reflexivity. Qed.
Example C96_ex_place : filter_shard (D := nat) ex_arr (fun d => d) ex_place
    (Node 0 [Leaf (6, Some 1); Leaf (0, Some 3)]) (ToShardings (Leaf 2)) = Err ValueError
  /\ ~ prefix_of (S := nat) ex_arr (Node 0 [TNone]) (Node 0 [Leaf (6, Some 1)]).
Proof.
  split; [reflexivity|]. intros (xs & E & H). injection E as <-. cbn in H. destruct H as [[H|(a & E & Ha)] _]; [discriminate|].
  injection E as <-. discriminate.
Qed.
