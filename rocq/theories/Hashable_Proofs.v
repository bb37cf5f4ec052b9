From Verif Require Import Hashable_Model Tree_Facts.

Section P.
  Context {A : Type}.
  Variables (t : tree A) (f : tree A -> bool).

  Lemma repack (ls : list (tree A)) : Forall is_Leaf ls ->
    map (fun ds : tree A * tree A => if is_none (snd ds) then fst ds else snd ds)
      (List.combine (map (fun x => if f x then x else TNone) ls)
                    (map (fun x => if f x then TNone else x) ls)) = ls.
  Proof.
    induction 1 as [|x ls [a ->] _ IH]; simpl; [reflexivity|].
    rewrite IH. destruct (f (Leaf a)); reflexivity.
  Qed.

  Lemma hashable_roundtrip :
    hashable_combine (fst (hashable_partition t f)) (snd (hashable_partition t f)) = Ok t.
  Proof.
    simpl. rewrite repack by apply leaves_are_Leaf. apply unflatten_flatten.
  Qed.

  Lemma hashable_positions i x :
    nth_error (leaves no_leaf t) i = Some x ->
    nth_error (fst (hashable_partition t f)) i = Some (if f x then x else TNone) /\
    nth_error (fst (snd (hashable_partition t f))) i = Some (if f x then TNone else x).
  Proof. intros H; simpl; rewrite !nth_error_map, H; auto. Qed.

  Lemma hashable_lengths :
    length (fst (hashable_partition t f)) = length (leaves no_leaf t) /\
    length (fst (snd (hashable_partition t f))) = length (leaves no_leaf t).
  Proof. simpl; rewrite !map_length; auto. Qed.

  Lemma retrace_nth (ls : list (tree A)) : Forall is_Leaf ls -> forall dyn,
    length dyn = length ls -> forall i x, nth_error ls i = Some x ->
    nth_error (map (fun ds : tree A * tree A => if is_none (snd ds) then fst ds else snd ds)
      (List.combine dyn (map (fun x => if f x then TNone else x) ls))) i
    = if f x then nth_error dyn i else Some x.
  Proof.
    induction 1 as [|y ls' [a ->] _ IH]; intros [|d dyn] Hlen i x Hi; try discriminate.
    - destruct i; discriminate.
    - destruct i; simpl in *.
      + injection Hi as <-. destruct (f (Leaf a)); reflexivity.
      + apply IH; auto.
  Qed.

  (** Replacing the dynamic leaves (as tracing does) keeps everything else. *)
  Lemma hashable_retrace (dyn : list (tree A)) :
    length dyn = length (leaves no_leaf t) ->
    (forall i x, nth_error (leaves no_leaf t) i = Some x -> f x = true ->
       exists a, nth_error dyn i = Some (Leaf a)) ->
    exists t', hashable_combine dyn (snd (hashable_partition t f)) = Ok t' /\
      treedef no_leaf t' = treedef no_leaf t /\
      forall i x, nth_error (leaves no_leaf t) i = Some x ->
        nth_error (leaves no_leaf t') i = if f x then nth_error dyn i else Some x.
  Proof.
    intros Hlen Hdyn. simpl.
    set (ls := leaves no_leaf t) in *.
    assert (HL : Forall is_Leaf ls) by apply leaves_are_Leaf.
    set (new := map _ (List.combine dyn _)).
    assert (Hnth : forall i x, nth_error ls i = Some x ->
        nth_error new i = if f x then nth_error dyn i else Some x).
    { unfold new. apply retrace_nth; assumption. }
    assert (Hnlen : length new = length ls).
    { unfold new. rewrite map_length, combine_length, map_length. lia. }
    assert (HnL : Forall is_Leaf new).
    { rewrite Forall_forall. intros y Hy. apply In_nth_error in Hy; destruct Hy as [i Hi].
      destruct (nth_error_ge_ex ls i) as [x Hx]; [apply nth_error_lt in Hi; lia|].
      rewrite (Hnth i x Hx) in Hi. destruct (f x) eqn:Ef.
      - destruct (Hdyn i x Hx Ef) as [a Ha]. rewrite Ha in Hi; injection Hi as <-; exists a; auto.
      - injection Hi as <-. rewrite Forall_forall in HL. apply HL. eapply nth_error_In; eauto. }
    assert (Hex : exists t', unflatten (treedef no_leaf t) new = Ok t').
    { apply unflatten_ok_iff. rewrite slots_leaves. exact Hnlen. }
    destruct Hex as [t' Ht']. exists t'. split; [exact Ht'|].
    destruct (flatten_unflatten _ _ _ Ht' HnL) as [E1 E2]. split; [exact E1|].
    intros i x Hx. rewrite E2. apply Hnth; exact Hx.
  Qed.
End P.
