(** Two trees of the same structure whose leaves are related one by one. *)
From Verif Require Export Tree_Facts.

Inductive trel {A B} (R : A -> B -> Prop) : tree A -> tree B -> Prop :=
| tr_leaf : forall a b, R a b -> trel R (Leaf a) (Leaf b)
| tr_none : trel R TNone TNone
| tr_node : forall k cs ds, Forall2 (trel R) cs ds -> trel R (Node k cs) (Node k ds).

Inductive lrel {A B} (R : A -> B -> Prop) : tree A -> tree B -> Prop :=
| lr_leaf : forall a b, R a b -> lrel R (Leaf a) (Leaf b).

Lemma Forall2_length' {X Y} (P : X -> Y -> Prop) l r : Forall2 P l r -> length l = length r.
Proof. induction 1; simpl; congruence. Qed.

Lemma Forall2_app_split {X Y} (P : X -> Y -> Prop) l1 l2 r1 r2 :
  Forall2 P (l1 ++ l2) (r1 ++ r2) -> length l1 = length r1 ->
  Forall2 P l1 r1 /\ Forall2 P l2 r2.
Proof.
  revert r1; induction l1 as [|x l1 IH]; intros [|y r1] H E; try discriminate; simpl in *.
  - split; [constructor|exact H].
  - inversion H as [|x' y' l' r' Hxy Hr]; subst. destruct (IH r1) as [H1 H2]; auto.
Qed.

Lemma trel_of_leaves {A B} (R : A -> B -> Prop) (t : tree A) : forall u : tree B,
  treedef no_leaf t = treedef no_leaf u ->
  Forall2 (lrel R) (leaves no_leaf t) (leaves no_leaf u) -> trel R t u.
Proof.
  induction t as [a| |k cs IH] using tree_ind'; intros u Hd Hl; destruct u as [b| |k' ds];
    simpl in Hd; try discriminate.
  - simpl in Hl. inversion Hl as [|x y l r Hxy Hr]; subst. inversion Hxy; subst.
    constructor; assumption.
  - constructor.
  - injection Hd as <- Hd. constructor. simpl in Hl.
    revert ds Hd Hl; induction IH as [|c cs Hc _ IHcs]; intros [|d ds] Hd Hl; simpl in *;
      try discriminate; constructor; injection Hd as Hd1 Hd2.
    + apply Hc; [exact Hd1|]. apply Forall2_app_split in Hl; [tauto|].
      rewrite <- !slots_leaves, Hd1; reflexivity.
    + apply IHcs; [exact Hd2|]. apply Forall2_app_split in Hl; [tauto|].
      rewrite <- !slots_leaves, Hd1; reflexivity.
Qed.

Lemma trel_treedef {A B} (R : A -> B -> Prop) (t : tree A) : forall u : tree B,
  trel R t u -> treedef no_leaf t = treedef no_leaf u.
Proof.
  induction t as [a| |k cs IH] using tree_ind'; intros u H; inversion H; subst; simpl;
    try reflexivity.
  f_equal.
  match goal with H0 : Forall2 _ _ _ |- _ => rename H0 into HF0 end;
    clear H; induction HF0 as [|c d cs ds Hcd HF IHF];
    simpl; [reflexivity|].
  inversion IH as [|x l Hx Hl]; subst. f_equal; [apply Hx; exact Hcd|].
  exact (IHF Hl).
Qed.

Lemma trel_leaves {A B} (R : A -> B -> Prop) (t : tree A) : forall u : tree B,
  trel R t u -> Forall2 (lrel R) (leaves no_leaf t) (leaves no_leaf u).
Proof.
  induction t as [a| |k cs IH] using tree_ind'; intros u H; inversion H; subst; simpl.
  - constructor; [constructor; assumption|constructor].
  - constructor.
  - match goal with H0 : Forall2 _ _ _ |- _ => rename H0 into HF0 end;
    clear H; induction HF0 as [|c d cs ds Hcd HF IHF];
      simpl; [constructor|].
    inversion IH as [|x l Hx Hl]; subst. apply Forall2_app; [apply Hx; exact Hcd|].
    exact (IHF Hl).
Qed.
