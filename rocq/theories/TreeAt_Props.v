(** C06-C08: [tree_at]. *)
From Verif Require Import TreeAt_Proofs5.

(** C06. For an arbitrary [where] (any function of the copied tree whatsoever) and any
    [is_leaf]: if [tree_at] returns, the result is the input edited at finitely many positions,
    none of them inside another, the new subtrees are [replace] itself or its items, and
    every other position holds exactly what it held before. *)
Theorem C06_frame : forall A (aeq : A -> A -> bool) isl w t r out,
  tree_at aeq isl w t (Some r) None = Ok out ->
  exists edits, disjoint_edits edits /\ edited t edits out /\
    ((forall p v, In (p, v) edits -> v = r) \/
     (forall p v, In (p, v) edits -> exists k rs, r = Node k rs /\ In v rs)).
Proof. intros A. exact tree_at_frame. Qed.
Print Assumptions C06_frame.

Theorem C06_frame_replace_fn : forall A (aeq : A -> A -> bool) isl w t f out,
  tree_at aeq isl w t None (Some f) = Ok out ->
  exists edits, disjoint_edits edits /\ edited t edits out /\
    forall p v, In (p, v) edits -> exists x y, f x = Ok y /\ v = erase y.
Proof. intros A. exact tree_at_frame_fn. Qed.
Print Assumptions C06_frame_replace_fn.

(** Selecting different positions, none inside another: the selected positions hold the
    replacements in order and nothing else changes. *)
Theorem C06_put_get : forall A (aeq : A -> A -> bool) uisl,
  (forall a, aeq a a = true) -> forall t k ps rs out,
  tree_at aeq (by_value uisl) (where_many ps) t (Some (Node k rs)) None = Ok out ->
  NoDup ps -> (forall p q, In p ps -> In q ps -> ~ strict_prefix p q) ->
  length rs = length ps /\ edited t (List.combine ps rs) out.
Proof. intros A. exact put_get_many. Qed.
Print Assumptions C06_put_get.

Theorem C06_put_get_single : forall A (aeq : A -> A -> bool) uisl,
  (forall a, aeq a a = true) -> forall t p r out,
  tree_at aeq (by_value uisl) (where_one p) t (Some r) None = Ok out -> edited t [(p, r)] out.
Proof. intros A. exact put_get_one. Qed.
Print Assumptions C06_put_get_single.

(** [edited] determines the result, so the above says everything about it. *)
Theorem C06_determined : forall A (t : tree A) edits out out',
  edited t edits out -> edited t edits out' -> out = out'.
Proof. intros A. exact edited_unique. Qed.
Print Assumptions C06_determined.

(** If a position is selected several times, the last replacement given for it is used. *)
Theorem C06_repeated : forall A (aeq : A -> A -> bool) uisl,
  (forall a, aeq a a = true) -> forall t k ps rs out,
  tree_at aeq (by_value uisl) (where_many ps) t (Some (Node k rs)) None = Ok out ->
  (forall p q, In p ps -> In q ps -> ~ strict_prefix p q) ->
  length rs = length ps /\
  (forall p, In p ps -> sub out p = last_for p (List.combine ps rs)) /\
  (forall q, (forall p, In p ps -> ~ prefix p q) -> label_at out q = label_at t q).
Proof. intros A. exact put_get_last. Qed.
Print Assumptions C06_repeated.

Notation at_ := (tree_at Nat.eqb).
Notation no_isl := (by_value (@no_leaf nat)).
Definition T (cs : list (tree nat)) : tree nat := Node ktuple cs.
Definition Li (cs : list (tree nat)) : tree nat := Node klist cs.

(** [tree_at(lambda t: (t[1][0], t[0]), [1, [2, ()], ()], [7, [8]])] *)
Example C06_ex : at_ no_isl (where_many [[1; 0]; [0]]) (Li [Leaf 1; Li [Leaf 2; T []]; T []])
    (Some (Li [Leaf 7; Li [Leaf 8]])) None = Ok (Li [Li [Leaf 8]; Li [Leaf 7; T []]; T []]).
Proof. reflexivity. Qed.
(** The two [()] are told apart. *)
Example C06_ex_empty : at_ no_isl (where_one [1]) (Li [T []; T []]) (Some (Leaf 3)) None
    = Ok (Li [T []; Leaf 3]).
Proof. reflexivity. Qed.
(** Equal leaves are told apart. *)
Example C06_ex_same : at_ no_isl (where_one [1]) (Li [Leaf 1; Leaf 1]) (Some TNone) None
    = Ok (Li [Leaf 1; TNone]).
Proof. reflexivity. Qed.

(** The property as first stated is false: with a position selected twice, reading back does
    not give the replacements.  [tree_at(lambda t: (t[0], t[0]), [1], [2, 3]) == [3]]. *)
Theorem C06_read_back_refuted : exists t ps rs out,
  at_ no_isl (where_many ps) t (Some (Li rs)) None = Ok out /\
  map (sub out) ps <> map Some rs.
Proof.
  exists (Li [Leaf 1]), [[0]; [0]], [Leaf 2; Leaf 3], (Li [Leaf 3]). split; [reflexivity|discriminate].
Qed.
Print Assumptions C06_read_back_refuted.

(** C07. Exactly when a selection is accepted. [acceptable]: each selected position exists and
    is reachable without entering a leaf, and
    - a selected node other than a bare [None] is not inside another selected node;
    - for a selected bare [None] there is exactly one bare [None] of the tree outside the other
      selected nodes. *)
Theorem C07_accepts_iff : forall A (aeq : A -> A -> bool) uisl,
  (forall a, aeq a a = true) -> forall t k ps rs, is_seq k = true ->
  (forall ss, Forall2 (fun p s => sub t p = Some s) ps ss -> uisl (Node ktuple ss) = false) ->
  ((exists out, tree_at aeq (by_value uisl) (where_many ps) t (Some (Node k rs)) None = Ok out) <->
   length rs = length ps /\
   (forall p, In p ps ->
      visible uisl t p /\
      (~ bare_none uisl t p -> forall q, In q ps -> ~ strict_prefix q p) /\
      (bare_none uisl t p -> exists q, bare_none uisl t q /\ (forall q', In q' ps -> ~ strict_prefix q' q) /\
         forall q', bare_none uisl t q' -> (forall q0, In q0 ps -> ~ strict_prefix q0 q') -> q' = q))).
Proof. intros A. exact many_iff. Qed.
Print Assumptions C07_accepts_iff.

Theorem C07_accepts_single_iff : forall A (aeq : A -> A -> bool) uisl,
  (forall a, aeq a a = true) -> forall t p r,
  ((exists out, tree_at aeq (by_value uisl) (where_one p) t (Some r) None = Ok out) <->
   visible uisl t p /\ (bare_none uisl t p -> forall q, bare_none uisl t q -> q = p)).
Proof. intros A. exact one_iff. Qed.
Print Assumptions C07_accepts_single_iff.

(** A consequence without [None]s: if the tree has no bare [None], a selection is accepted
    exactly when all positions exist, none is inside another, and the lengths agree. *)
Theorem C07_no_none : forall A (aeq : A -> A -> bool) uisl,
  (forall a, aeq a a = true) -> forall t k ps rs, is_seq k = true ->
  (forall ss, Forall2 (fun p s => sub t p = Some s) ps ss -> uisl (Node ktuple ss) = false) ->
  (forall p, ~ bare_none uisl t p) ->
  ((exists out, tree_at aeq (by_value uisl) (where_many ps) t (Some (Node k rs)) None = Ok out) <->
   length rs = length ps /\ (forall p, In p ps -> visible uisl t p) /\
   (forall p q, In p ps -> In q ps -> ~ strict_prefix p q)).
Proof.
  intros A aeq uisl Hr t k ps rs Hk HU HB. rewrite (C07_accepts_iff A aeq uisl Hr t k ps rs Hk HU).
  split; intros [HL H]; split; auto.
  - split; [intros p Hp; apply H; auto|]. intros p q Hp Hq. apply (H q Hq); auto.
  - intros p Hp. destruct H as [H1 H2]. split; [auto|]. split; [intros _ q Hq; auto|].
    intros B. exfalso. eapply HB; eauto.
Qed.
Print Assumptions C07_no_none.

(** Exactly one of [replace] and [replace_fn] has to be given. *)
Theorem C07_one_of_replace : forall A (aeq : A -> A -> bool) isl w t r f out,
  tree_at aeq isl w t r f = Ok out -> (r = None <-> f <> None).
Proof.
  intros A aeq isl w t r f out H. apply tree_at_inv in H as (n1 & n2 & d & y & _ & _ & _ & H & _).
  unfold fns_of in H. destruct r, f; try discriminate H; split; congruence.
Qed.
Print Assumptions C07_one_of_replace.

(** A [where] that returns an object not taken from the tree is refused, e.g. a constant leaf
    or a reconstructed container; so is one that looks at leaf values. *)
Example C07_ex_fresh : at_ no_isl (fun _ => Ok (PNode (3, []) klist [PNode (3, [0]) klist []]))
    (Li [Li []]) (Some (Li [Leaf 2])) None = Err ValueError.
Proof. reflexivity. Qed.
Example C07_ex_looks : at_ no_isl
    (fun x => match x with
              | PNode _ _ (PLeaf 1 :: _) => pick x [0]
              | _ => pick x [1]
              end) (Li [Leaf 1; Leaf 2]) (Some (Leaf 5)) None = Err ValueError.
Proof. reflexivity. Qed.
Example C07_ex_nested : at_ no_isl (where_many [[0]; [0; 0]]) (Li [Li [Leaf 1]])
    (Some (Li [Leaf 2; Leaf 3])) None = Err ValueError.
Proof. reflexivity. Qed.
Example C07_ex_two_nones : at_ no_isl (where_one [0]) (T [TNone; TNone; Leaf 1])
    (Some (Leaf 5)) None = Err ValueError.
Proof. reflexivity. Qed.
Example C07_ex_two_nones_isleaf : at_ (by_value is_none) (where_one [0]) (T [TNone; TNone; Leaf 1])
    (Some (Leaf 5)) None = Ok (T [Leaf 5; TNone; Leaf 1]).
Proof. reflexivity. Qed.
Example C07_ex_length : at_ no_isl (where_many [[0]; [1]]) (Li [Leaf 1; Leaf 2])
    (Some (Li [Leaf 5])) None = Err ValueError.
Proof. reflexivity. Qed.

(** What is raised by a refused call: [ValueError] or [TypeError], unless it comes from [where] or [replace_fn] (or stands for a wrapper handed to the
    caller, see the model). *)
Lemma mapM_err {X Y} (f : X -> res Y) l e : mapM f l = Err e -> exists x, In x l /\ f x = Err e.
Proof.
  induction l as [|x l IH]; cbn; [discriminate|]. destruct (f x) eqn:E; cbn; [|intros [= <-]; exists x; auto].
  destruct (mapM f l); cbn; [discriminate|]. intros [= <-]. destruct IH as (y & H1 & H2); [reflexivity|]. eauto.
Qed.
Lemma remove_err {A} (x : pyobj A) e : remove_leaf_wrapper x = Err e -> e = TypeError.
Proof. destruct x; cbn; congruence. Qed.
Lemma unwrap_err {A} e : forall x : pyobj A, unwrap x = Err e -> e = TypeError.
Proof.
  induction x as [a| |i k cs IH|i x IH|i] using pyobj_ind'; cbn; try congruence. intros H. destruct (mapM unwrap cs) eqn:E; cbn in H; [discriminate|]. injection H as <-.
  apply mapM_err in E as (x & Hx & E). rewrite Forall_forall in IH. exact (IH x Hx E).
Qed.
Lemma lookup_in {A V} (aeq : A -> A -> bool) d x (v : V) : lookup aeq d x = Some v -> exists n, In (n, v) d.
Proof.
  induction d as [|[n w] d IH]; cbn; [discriminate|]. destruct (lookup aeq d x) as [v'|] eqn:E.
  - intros [= ->]. destruct IH as [m Hm]; [reflexivity|]. eauto.
  - destruct (same aeq n x); [|discriminate]. intros [= ->]. eauto.
Qed.
Lemma replace_all_err {A} (aeq : A -> A -> bool) d e : forall x, replace_all aeq d x = Err e -> e = TypeError \/ exists n g y, In (n, g) d /\ g y = Err e.
Proof.
  assert (M : forall x, make_replacement aeq d x = Err e -> e = TypeError \/ exists n g y, In (n, g) d /\ g y = Err e).
  { intros x. unfold make_replacement. destruct (lookup aeq d x) as [g|] eqn:E; [|left; eapply remove_err; eassumption].
    intros H. apply lookup_in in E as [n Hn]. right. exists n, g, x. auto. }
  induction x as [a| |i k cs IH|i x IH|i] using pyobj_ind'; intros H; cbn in H; try (destruct (contains aeq d _) in H; [exact (M _ H)|]); try exact (M _ H); [discriminate|].
  destruct (mapM (replace_all aeq d) cs) eqn:E; cbn in H; [discriminate|]. injection H as <-.
  apply mapM_err in E as (x & Hx & E). rewrite Forall_forall in IH. exact (IH x Hx E).
Qed.
Theorem C07_errors : forall A (aeq : A -> A -> bool) isl w t r f e, tree_at aeq isl w t r f = Err e ->
  e = ValueError \/ e = TypeError \/ e = OtherError 1 \/ (exists x, w x = Err e) \/ (exists g x, f = Some g /\ g x = Err e).
Proof.
  intros A aeq isl w t r f e H. unfold tree_at in H. cbv zeta in H.
  destruct (w (copy1 [] t)) as [n1|] eqn:E1; cbn [bind] in H; [|injection H as <-; eauto 6].
  destruct (w (copy2 isl [] (copy1 [] t))) as [n2|] eqn:E2; cbn [bind] in H; [|injection H as <-; eauto 6].
  destruct (check_where aeq isl n1 n2) eqn:E3; cbn [bind] in H.
  2: { injection H as <-. unfold check_where in E3. destruct (mapM _ _) eqn:E4 in E3; cbn [bind] in E3.
       - match type of E3 with (if ?b then _ else _) = _ => destruct b end; [injection E3 as <-; auto|discriminate].
       - injection E3 as <-. apply mapM_err in E4 as (x & _ & E4). apply remove_err in E4. auto. }
  match type of H with bind ?m _ = _ => destruct m as [fns|e'] eqn:E4; cbn [bind] in H end.
  - destruct (replace_all aeq fns _) as [out|e'] eqn:E5; cbn [bind] in H.
    + match type of H with (if ?b then _ else _) = _ => destruct b end; [|injection H as <-; auto]. destruct (leaks out); [injection H as <-; auto|discriminate].
    + injection H as <-. apply replace_all_err in E5 as [->|(n & g & y & Hn & Hg)]; [auto|].
      destruct r as [r|], f as [f|]; try discriminate E4; destruct (if in_pytree aeq n2 _ then _ else _) as [ns|] eqn:En in E4; cbn [bind] in E4; try discriminate E4.
      * destruct (if in_pytree aeq n2 _ then _ else _) as [rs|] eqn:Er in E4; cbn [bind] in E4; [|discriminate]. destruct (negb _); [discriminate|]. injection E4 as <-.
        apply in_combine_r in Hn. apply in_map_iff in Hn as (v & <- & _). discriminate.
      * injection E4 as <-. apply in_map_iff in Hn as (m & Em & _). injection Em as <- <-. destruct (unwrap y) as [u|] eqn:Eu; cbn [bind] in Hg; [eauto 8|injection Hg as <-; apply unwrap_err in Eu; auto].
  - injection H as <-. assert (S1 : forall x : pyobj A, match seq_items x with Err e => e = TypeError | _ => True end) by (intros [| |i k cs| |]; cbn; auto; destruct (is_seq k); auto).
    assert (S2 : forall x : tree A, match seq_vals x with Err e => e = TypeError | _ => True end) by (intros [| |k cs]; cbn; auto; destruct (is_seq k); auto).
    destruct r as [r|], f as [f|]; try (injection E4 as <-; auto); pose proof (S1 n2); try pose proof (S2 r); destruct (in_pytree aeq n2 _) in E4; cbn [bind] in E4; try discriminate E4.
    + destruct (seq_items n2); cbn [bind] in E4; [|injection E4 as <-; auto]. destruct (seq_vals r); cbn [bind] in E4; [|injection E4 as <-; auto].
      destruct (negb _); [injection E4 as <-; auto|discriminate].
    + destruct (seq_items n2); cbn [bind] in E4; [discriminate|injection E4 as <-; auto].
Qed.
Print Assumptions C07_errors.

(** A selection of several nodes has to be a list or tuple of them. *)
Theorem C07_not_sequence : forall A (aeq : A -> A -> bool) uisl w t r f k, is_seq k = false ->
  (forall x n, w x = Ok n -> exists cs, n = PNode (3, []) k cs) -> forall out, tree_at aeq (by_value uisl) w t r f <> Ok out.
Proof.
  intros A aeq uisl w t r f k Hk Hw out H. unfold tree_at in H.
  destruct (w (copy1 [] t)); cbn [bind] in H; [|discriminate].
  destruct (w (copy2 _ [] _)) as [n|] eqn:E; cbn [bind] in H; [|discriminate]. destruct (Hw _ _ E) as [cs ->].
  destruct (check_where _ _ _ _); cbn [bind] in H; [|discriminate].
  change (copy2 (by_value uisl) [] (copy1 [] t)) with (D uisl [] t) in H. rewrite in_pytree_fresh in H. cbn [seq_items] in H. rewrite Hk in H. destruct r, f; discriminate.
Qed.
Print Assumptions C07_not_sequence.
Example C07_not_sequence_ex : is_seq 5 = false. Proof. reflexivity. Qed.

(** Two parts of the property as first stated are false of the code.
    A node selected twice is accepted: *)
Theorem C07_duplicate_refuted : exists t ps rs out, ~ NoDup ps /\
  at_ no_isl (where_many ps) t (Some (Li rs)) None = Ok out.
Proof.
  exists (Li [Leaf 1]), [[0]; [0]], [Leaf 2; Leaf 3], (Li [Leaf 3]). split; [|reflexivity].
  intros H. inv H. apply H2. left; auto.
Qed.
Print Assumptions C07_duplicate_refuted.

(** and a [None] inside another selected node is accepted when the tree has one more [None],
    which then gets the replacement: [tree_at(lambda t: (t[0], t[0][0]), [[None], None], (1, 2))]
    is [[1, 2]]. *)
Theorem C07_nested_none_refuted : exists t ps rs out p q,
  In p ps /\ In q ps /\ strict_prefix p q /\
  at_ no_isl (where_many ps) t (Some (T rs)) None = Ok out /\
  (exists z, ~ In z ps /\ (forall x, In x ps -> ~ prefix x z) /\ sub out z <> sub t z).
Proof.
  exists (Li [Li [TNone]; TNone]), [[0]; [0; 0]], [Leaf 1; Leaf 2], (Li [Leaf 1; Leaf 2]), [0], [0; 0].
  split; [left; auto|]. split; [right; left; auto|]. split; [exists 0, []; auto|]. split; [reflexivity|].
  exists [1]. split; [intros [E|[E|[]]]; discriminate|]. split; [|discriminate].
  intros x [<-|[<-|[]]] [r E]; discriminate.
Qed.
Print Assumptions C07_nested_none_refuted.

(** If [is_leaf] accepts the tuple that [where] returns, the selection is refused although each
    node is fine (here [is_leaf = lambda x: type(x) is tuple]). *)
Theorem C07_is_leaf_tuple_refuted : exists uisl t ps rs,
  (forall p, In p ps -> visible uisl t p) /\ NoDup ps /\ length rs = length ps /\
  (forall p, ~ bare_none uisl t p) /\ (forall p q, In p ps -> In q ps -> ~ strict_prefix p q) /\
  at_ (by_value uisl) (where_many ps) t (Some (Li rs)) None = Err ValueError.
Proof.
  exists (fun x : tree nat => match x with Node k _ => Nat.eqb k ktuple | _ => false end),
    (Li [Leaf 1; Leaf 2]), [[0]; [1]], [Leaf 3; Leaf 4].
  split. { intros p [<-|[<-|[]]]; (econstructor; [reflexivity|reflexivity|constructor]). }
  split. { repeat constructor; cbn; try tauto. intros [E|[]]; discriminate. }
  split; [reflexivity|]. split.
  { intros p (_ & E & _). destruct p as [|[|[|i]] [|]]; cbn in E; try discriminate. destruct i; discriminate.
    destruct i; discriminate. }
  split; [|reflexivity].
  intros p q [<-|[<-|[]]] [<-|[<-|[]]] (i & r & E); discriminate.
Qed.
Print Assumptions C07_is_leaf_tuple_refuted.

(** C08. [replace_fn = f] is [replace = [f(n) for n in where(tree)]], for every [f] that does
    not tell [()] from its stand-in. *)
Theorem C08_replace_fn : forall A (aeq : A -> A -> bool) uisl,
  (forall a, aeq a a = true) -> forall t g ps ss rs,
  Forall2 (fun p s => sub t p = Some s) ps ss -> mapM g ss = Ok rs ->
  uisl (Node ktuple ss) = false -> (forall p, In p ps -> visible uisl t p) ->
  tree_at aeq (by_value uisl) (where_many ps) t None (Some (fn_by_value g)) =
  tree_at aeq (by_value uisl) (where_many ps) t (Some (Node ktuple rs)) None.
Proof. intros A. exact fn_many. Qed.
Print Assumptions C08_replace_fn.

Theorem C08_replace_fn_single : forall A (aeq : A -> A -> bool) uisl,
  (forall a, aeq a a = true) -> forall t g p s r,
  sub t p = Some s -> visible uisl t p -> g s = Ok r ->
  tree_at aeq (by_value uisl) (where_one p) t None (Some (fn_by_value g)) =
  tree_at aeq (by_value uisl) (where_one p) t (Some r) None.
Proof. intros A. exact fn_one. Qed.
Print Assumptions C08_replace_fn_single.

(** Selections through an [is_leaf] leaf never succeed, with either argument. *)
Theorem C08_invisible : forall A (aeq : A -> A -> bool) uisl t ps r f,
  (exists p, In p ps /\ ~ visible uisl t p) ->
  forall out, tree_at aeq (by_value uisl) (where_many ps) t r f <> Ok out.
Proof. intros A aeq. exact (fn_many_invisible aeq). Qed.
Print Assumptions C08_invisible.

(** Replacing nodes by themselves changes nothing (repeated or aliased selections included). *)
Theorem C08_identity : forall A (aeq : A -> A -> bool) uisl,
  (forall a, aeq a a = true) -> forall t k ps ss out,
  Forall2 (fun p s => sub t p = Some s) ps ss ->
  tree_at aeq (by_value uisl) (where_many ps) t (Some (Node k ss)) None = Ok out -> out = t.
Proof. intros A. exact many_identity. Qed.
Print Assumptions C08_identity.

(** Edits of unrelated positions commute. *)
Theorem C08_commute : forall A (aeq : A -> A -> bool) uisl,
  (forall a, aeq a a = true) -> forall t ps rs qs ss o1 o12 o2 o21,
  separate ps -> separate qs -> unrelated ps qs ->
  tree_at aeq (by_value uisl) (where_many ps) t (Some (Node ktuple rs)) None = Ok o1 ->
  tree_at aeq (by_value uisl) (where_many qs) o1 (Some (Node ktuple ss)) None = Ok o12 ->
  tree_at aeq (by_value uisl) (where_many qs) t (Some (Node ktuple ss)) None = Ok o2 ->
  tree_at aeq (by_value uisl) (where_many ps) o2 (Some (Node ktuple rs)) None = Ok o21 ->
  o12 = o21.
Proof. intros A. exact commute. Qed.
Print Assumptions C08_commute.

(** Without [is_leaf], and selecting no [None], all four calls succeed as well. *)
Theorem C08_commute_total : forall A (aeq : A -> A -> bool),
  (forall a, aeq a a = true) -> forall t ps rs qs ss,
  separate ps -> separate qs -> unrelated ps qs ->
  selects_values t ps -> selects_values t qs -> length rs = length ps -> length ss = length qs ->
  exists o1 o2 o,
    tree_at aeq (by_value no_leaf) (where_many ps) t (Some (Node ktuple rs)) None = Ok o1 /\
    tree_at aeq (by_value no_leaf) (where_many qs) o1 (Some (Node ktuple ss)) None = Ok o /\
    tree_at aeq (by_value no_leaf) (where_many qs) t (Some (Node ktuple ss)) None = Ok o2 /\
    tree_at aeq (by_value no_leaf) (where_many ps) o2 (Some (Node ktuple rs)) None = Ok o.
Proof. intros A. exact commute_total. Qed.
Print Assumptions C08_commute_total.

Example C08_ex : at_ no_isl (where_many [[0]; [1]]) (Li [Leaf 1; Leaf 2; T []]) None
    (Some (fn_by_value (fun t => Ok (Li [t])))) = Ok (Li [Li [Leaf 1]; Li [Leaf 2]; T []]).
Proof. reflexivity. Qed.

(** The restriction on [f] is needed: [replace_fn] is handed the tree in which each [()] has
    been replaced by a private object that is a leaf. [jtu.tree_map(lambda x: x + 1, ..)] as
    [replace_fn] raises on [[1, ()]], where mapping it over the selected node does not. *)
Fixpoint incr (t : tree nat) : res (tree nat) :=
  match t with
  | Leaf n => Ok (Leaf (S n))
  | TNone => Ok TNone
  | Node k cs => rmap (Node k) (mapM incr cs)
  end.
Fixpoint incr_obj (x : pyobj nat) : res (pyobj nat) :=
  match x with
  | PLeaf n => Ok (PLeaf (S n))
  | PNone => Ok PNone
  | PNode i k cs => rmap (PNode i k) (mapM incr_obj cs)
  | _ => Err TypeError
  end.
Theorem C08_distinct_tuple_refuted : exists t s r,
  sub t [0] = Some s /\ incr s = Ok r /\
  at_ no_isl (where_one [0]) t (Some r) None = Ok (Li [r]) /\
  at_ no_isl (where_one [0]) t None (Some incr_obj) = Err TypeError.
Proof.
  exists (Li [Li [Leaf 1; T []]]), (Li [Leaf 1; T []]), (Li [Leaf 2; T []]).
  repeat split; reflexivity.
Qed.
Print Assumptions C08_distinct_tuple_refuted.
