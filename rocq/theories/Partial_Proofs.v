(** Proofs about [Partial], [Static] and hashing. *)
From Verif Require Export Partial_Model TreeEq_Proofs.

Lemma nodupb_spec l : nodupb l = true <-> NoDup l.
Proof.
  induction l as [|x l IH]; cbn; [split; auto; constructor|]. rewrite andb_true_iff, IH, negb_true_iff. split.
  - intros [H1 H2]. constructor; auto. intros HC. assert (existsb (Nat.eqb x) l = true); [|congruence].
    apply existsb_exists. exists x. rewrite Nat.eqb_refl. auto.
  - intros H. inversion H as [|y m HX HN]; subst. split; auto. destruct (existsb (Nat.eqb x) l) eqn:E; auto.
    apply existsb_exists in E as (y & Hy & E). apply Nat.eqb_eq in E. subst. tauto.
Qed.
Lemma nodupb_false l : nodupb l = false <-> ~ NoDup l.
Proof. rewrite <- nodupb_spec. destruct (nodupb l); intuition congruence. Qed.

Lemma nodup_app_l {X} (l r : list X) : NoDup (l ++ r) -> NoDup l.
Proof.
  induction l as [|x l IH]; cbn; intros H; [constructor|]. inversion H as [|y m H1 H2]; subst.
  constructor; auto. rewrite in_app_iff in H1. tauto.
Qed.
Lemma nodup_dec (l : list nat) : {NoDup l} + {~ NoDup l}.
Proof. destruct (nodupb l) eqn:E; [left; apply nodupb_spec|right; apply nodupb_false]; auto. Qed.

Section Partial.
  Context {V : Type} (self_name : nat).
  Notation pcall := (@partial_call V self_name).
  Notation names k := (map fst k).

  Lemma self_false (k : kwargs V) : existsb (Nat.eqb self_name) (names k) = false <-> ~ In self_name (names k).
  Proof.
    split.
    - intros H HC. assert (existsb (Nat.eqb self_name) (names k) = true); [|congruence].
      apply existsb_exists. exists self_name. rewrite Nat.eqb_refl. auto.
    - intros H. destruct (existsb _ _) eqn:E; auto. apply existsb_exists in E as (y & Hy & E). apply Nat.eqb_eq in E. subst. tauto.
  Qed.

  Lemma call_spec f (a : list V) k b l : ~ In self_name (names l) ->
    (NoDup (names (l ++ k)) -> pcall (partial_init f a k) b l = f (a ++ b) (l ++ k)) /\
    (~ NoDup (names (l ++ k)) -> pcall (partial_init f a k) b l = Err TypeError).
  Proof.
    intros H. apply self_false in H. unfold partial_call, call2. cbn [partial_init p_func p_args p_kw]. rewrite H. split; intros HN.
    - apply nodupb_spec in HN. rewrite HN. auto.
    - apply nodupb_false in HN. rewrite HN. auto.
  Qed.
  Lemma call_self f (a : list V) k b l : In self_name (names l) -> pcall (partial_init f a k) b l = Err TypeError.
  Proof.
    intros H. unfold partial_call. destruct (existsb _ _) eqn:E; auto. apply self_false in E. tauto.
  Qed.

  Lemma nest f (a : list V) k b l c m : ~ In self_name (names l) -> NoDup (names (l ++ k)) ->
    pcall (partial_init (pcall (partial_init f a k)) b l) c m = pcall (partial_init f (a ++ b) (l ++ k)) c m.
  Proof.
    intros Hl HN. destruct (in_dec Nat.eq_dec self_name (names m)) as [Hm|Hm]; [rewrite !call_self; auto|].
    destruct (call_spec (pcall (partial_init f a k)) b l c m Hm) as [A1 A2].
    destruct (call_spec f (a ++ b) (l ++ k) c m Hm) as [B1 B2].
    assert (Hml : ~ In self_name (names (m ++ l))).
    { rewrite map_app, in_app_iff. tauto. }
    destruct (call_spec f a k (b ++ c) (m ++ l) Hml) as [C1 C2].
    rewrite <- !app_assoc in *.
    destruct (nodup_dec (names (m ++ l ++ k))) as [D|D].
    - rewrite B1, A1, C1; auto. rewrite app_assoc, map_app in D. apply nodup_app_l in D. auto.
    - rewrite B2 by auto. destruct (nodup_dec (names (m ++ l))) as [D'|D']; [rewrite A1, C2|rewrite A2]; auto.
  Qed.
End Partial.

Section Hash.
  Variable hp : nat -> pyval -> option Z.
  Variable hn : dtype -> list elem -> Z.
  Variable ht : list Z -> Z.
  (** Python's contract: equal values have equal hashes. *)
  Hypothesis hp_eq : forall ty v ty' v' h h', pyval_eqb v v' = true -> hp ty v = Some h -> hp ty' v' = Some h' -> h = h'.
  Hypothesis hn_eq : forall d l l', list_eqb elem_eqb l l' = true -> hn d l = hn d l'.

  Lemma hash_eq_leaves l r acc o hl hr : length l = length r ->
    equal_leaves false (TolPy 0) (TolPy 0) acc l r = Some o -> truth o = true ->
    hash_leaves hp hn l = Ok hl -> hash_leaves hp hn r = Ok hr -> hl = hr.
  Proof.
    revert r acc hl hr. induction l as [|x l IH]; intros r acc hl hr HL HE HT Hl Hr; destruct r as [|y r]; try discriminate.
    - cbn in *. congruence.
    - cbn [equal_leaves andb] in HE. cbn in HL, Hl, Hr. injection HL as HL.
      destruct (hash_leaf hp hn x) as [hx|] eqn:Ex; [|discriminate]. destruct (hash_leaf hp hn y) as [hy|] eqn:Ey; [|discriminate].
      destruct (hash_leaves hp hn l) as [hl'|] eqn:El; [|discriminate]. destruct (hash_leaves hp hn r) as [hr'|] eqn:Er; [|discriminate].
      cbn in Hl, Hr. inv Hl. inv Hr.
      destruct x as [a|ty v], y as [b|ty' w]; try (discriminate HE).
      + destruct (a_class a) eqn:Ca; cbn in Ex; rewrite Ca in Ex; try discriminate.
        destruct (a_class b) eqn:Cb; cbn in Ey; rewrite Cb in Ey; try discriminate.
        cbn [is_numpy] in HE. rewrite Ca, Cb in HE. cbn [andb] in HE.
        match type of HE with (if ?b then _ else _) = _ => destruct b eqn:Q end; [discriminate HE|].
        apply orb_false_elim in Q as [Q Q3]. apply orb_false_elim in Q as [_ Q2].
        apply negb_false_iff in Q2, Q3. apply (proj1 (dtype_eqb_eq _ _)) in Q2. change (list_eqb elem_eqb (a_data a) (a_data b) = true) in Q3.
        f_equal; [|eapply IH; eauto]. inv Ex. inv Ey. rewrite Q2. apply hn_eq; auto.
      + destruct (pyval_eqb v w) eqn:Q; [|discriminate]. f_equal; [|eapply IH; eauto]. eapply hp_eq; eauto.
  Qed.

  Lemma equal_hash m m' o h h' : module_eq m m' = Ok o -> truth o = true ->
    module_hash hp hn ht m = Ok h -> module_hash hp hn ht m' = Ok h' -> h = h'.
  Proof.
    unfold module_eq, module_hash. cbn [tree_equal equal_rest]. intros HE HT Hm Hm'.
    destruct (treedef_eqb (treedef no_leaf m') (treedef no_leaf m)) eqn:Q; cbn [negb] in HE; [|inv HE; discriminate].
    apply treedef_eqb_eq in Q. pose proof (objs_length m m' Q) as HL.
    destruct (equal_leaves false (TolPy 0) (TolPy 0) (RPy true) (objs m) (objs m')) as [acc|] eqn:El; [|inv HE; discriminate].
    injection HE as ->.
    destruct (hash_leaves hp hn (objs m)) as [l|] eqn:E1; [|discriminate].
    destruct (hash_leaves hp hn (objs m')) as [r|] eqn:E2; [|discriminate].
    cbn in Hm, Hm'. inv Hm. inv Hm'. f_equal. eapply hash_eq_leaves; eauto.
  Qed.
End Hash.
