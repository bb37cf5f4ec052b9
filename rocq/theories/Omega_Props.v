(** C51: arithmetic on omega-wrapped pytrees is leafwise. *)
From Verif Require Import Filters_Spec Tree_Rel Omega_Model.

(** ** Specification *)
Section Spec.
  Context {A : Type}.

  (** The conditions under which [op] of two wrapped pytrees is defined. *)
  Definition compatible (a b : tree A) (f g : isleaf A) : Prop :=
    treedef no_leaf a = treedef no_leaf b /\
    match f, g with
    | ILFun c _, ILFun d _ => c = d
    | ILFun _ _, _ | _, ILFun _ _ => False
    | _, _ => True
    end.

  (** [r] is [a] with [op s s'] in place of each leaf [s], [s'] being what stands there in [b]. *)
  Definition leafwise2 (op : tree A -> tree A -> res (tree A)) (isl : tree A -> bool) (a b r : tree A) : Prop :=
    (forall p s, obj_leaf isl a p s ->
       exists s' v, sub b p = Some s' /\ op s s' = Ok v /\ sub r p = Some v) /\
    (forall p sh, interior isl a p sh -> shape_at r p = Some sh).
  Definition leafwise1 (op : tree A -> res (tree A)) (isl : tree A -> bool) (a r : tree A) : Prop :=
    (forall p s, obj_leaf isl a p s -> exists v, op s = Ok v /\ sub r p = Some v) /\
    (forall p sh, interior isl a p sh -> shape_at r p = Some sh).

  (** [x] is either the leafwise result, or the error of [op] at some leaf. *)
  Definition is_leafwise2 op isl (il : isleaf A) a b (x : res (operand A)) : Prop :=
    match x with
    | Ok o => exists r, o = Om r il /\ leafwise2 op isl a b r
    | Err e => exists p s s', obj_leaf isl a p s /\ sub b p = Some s' /\ op s s' = Err e
    end.
  Definition is_leafwise1 op isl (il : isleaf A) a (x : res (operand A)) : Prop :=
    match x with
    | Ok o => exists r, o = Om r il /\ leafwise1 op isl a r
    | Err e => exists p s, obj_leaf isl a p s /\ op s = Err e
    end.
End Spec.

(** ** Proofs *)
Section Proofs.
  Context {A : Type}.

  Lemma def_eqb_spec d : forall e, def_eqb d e = true <-> d = e.
  Proof.
    induction d as [[]| |k ds IH] using tree_ind'; intros [[]| |l es]; simpl; try (split; congruence).
    rewrite andb_true_iff, Nat.eqb_eq.
    match goal with |- context[?g ds es] =>
      assert (H : forall es, g ds es = true <-> ds = es) end.
    { clear es. induction IH as [|d ds Hd _ IHds]; intros [|e es]; simpl; try (split; congruence).
      rewrite andb_true_iff, Hd, IHds. split; [intros [-> ->]; reflexivity|intros H; injection H; auto]. }
    rewrite H. split; [intros [-> ->]; reflexivity|intros E; injection E; auto].
  Qed.

  Lemma equal_code_spec (f g : isleaf A) : equal_code f g = true <->
    match f, g with
    | ILFun c _, ILFun d _ => c = d
    | ILFun _ _, _ | _, ILFun _ _ => False
    | _, _ => True
    end.
  Proof. destruct f, g; simpl; rewrite ?Nat.eqb_eq; split; intros; auto; try discriminate; contradiction. Qed.

  Lemma mapMi_nil_rest {X Y} (f : nat -> X -> res Y) g l : forall i,
    (forall i x, f i x = g x) -> mapMi f i l = mapM g l.
  Proof.
    induction l as [|x l IH]; intros i H; simpl; [reflexivity|]. rewrite H.
    destruct (g x); simpl; [|reflexivity]. rewrite IH; auto.
  Qed.

  Lemma tree_map1_eq (il : isleaf A) f t :
    tree_map1 il f t =
    if isl_fn il t then f t else
    match t with
    | Leaf _ => f t
    | TNone => Ok TNone
    | Node k cs => rmap (Node k) (mapM (tree_map1 il f) cs)
    end.
  Proof.
    unfold tree_map1. destruct t as [a| |k cs]; simpl; destruct (isl_fn il _); try reflexivity.
    f_equal. apply mapMi_nil_rest. intros i x. reflexivity.
  Qed.

  Lemma mapM_err {X Y} (f : X -> res Y) l e : mapM f l = Err e ->
    exists i x, nth_error l i = Some x /\ f x = Err e.
  Proof.
    induction l as [|x l IH]; simpl; intros H; [discriminate|].
    apply bind_err in H as [H|(y & _ & H)]; [exists 0, x; auto|].
    apply bind_err in H as [H|(ys & _ & H)]; [|discriminate].
    destruct (IH H) as (i & x' & H1 & H2). exists (S i), x'; auto.
  Qed.

  Lemma interior_nil_shape (isl : tree A -> bool) t p sh : interior isl t p sh -> isl t = false.
  Proof. destruct 1; auto. Qed.

  Lemma map1_spec (il : isleaf A) f t :
    match tree_map1 il f t with
    | Ok r => leafwise1 f (isl_fn il) t r
    | Err e => exists p s, obj_leaf (isl_fn il) t p s /\ f s = Err e
    end.
  Proof.
    induction t as [a| |k cs IH] using tree_ind'; rewrite tree_map1_eq.
    - assert (E : (if isl_fn il (Leaf a) then f (Leaf a) else f (Leaf a)) = f (Leaf a))
        by (destruct (isl_fn il (Leaf a)); reflexivity).
      rewrite E. destruct (f (Leaf a)) as [r|e] eqn:Ef.
      + split.
        * intros p s H. inversion H; subst; exists r; auto.
        * intros p sh H. inversion H.
      + exists [], (Leaf a). split; [apply ol_leaf|exact Ef].
    - destruct (isl_fn il TNone) eqn:El.
      + destruct (f TNone) as [r|e] eqn:Ef.
        * split.
          -- intros p s H. inversion H; subst; exists r; auto.
          -- intros p sh H. apply interior_nil_shape in H. congruence.
        * exists [], TNone. split; [apply ol_isl; exact El|exact Ef].
      + split.
        * intros p s H. inversion H; subst; congruence.
        * intros p sh H. inversion H; subst. reflexivity.
    - destruct (isl_fn il (Node k cs)) eqn:El.
      + destruct (f (Node k cs)) as [r|e] eqn:Ef.
        * split.
          -- intros p s H. inversion H; subst; [exists r; auto|congruence].
          -- intros p sh H. apply interior_nil_shape in H. congruence.
        * exists [], (Node k cs). split; [apply ol_isl; exact El|exact Ef].
      + destruct (mapM (tree_map1 il f) cs) as [rs|e] eqn:Em; simpl.
        * assert (HN : forall i c, nth_error cs i = Some c ->
            exists r, nth_error rs i = Some r /\ leafwise1 f (isl_fn il) c r).
          { intros i c Hc. destruct (mapM_nth _ _ _ Em i c Hc) as (r & Hr & Hf).
            exists r. split; [exact Hr|]. rewrite Forall_forall in IH.
            specialize (IH c (nth_error_In _ _ Hc)). rewrite Hf in IH. exact IH. }
          split.
          -- intros p s H. inversion H as [| |k' cs' i c p' s' Hk Hn Hl]; subst; [congruence|].
             destruct (HN i c Hn) as (r & Hr & HL & _). simpl. rewrite Hr. apply HL; exact Hl.
          -- intros p sh H. inversion H as [|k' cs' Hk|k' cs' i c p' sh' Hk Hn Hl]; subst.
             ++ unfold shape_at; simpl. rewrite (mapM_length _ _ _ Em). reflexivity.
             ++ destruct (HN i c Hn) as (r & Hr & _ & HI). unfold shape_at; simpl. rewrite Hr.
                apply HI; exact Hl.
        * apply mapM_err in Em as (i & c & Hc & Hf).
          rewrite Forall_forall in IH. specialize (IH c (nth_error_In _ _ Hc)). rewrite Hf in IH.
          destruct IH as (p & s & Hp & Hs). exists (i :: p), s. split; [|exact Hs].
          eapply ol_down; eauto.
  Qed.

  Lemma zipM_spec {X Y Z} (f : X -> Y -> res Z) l : forall r, length l = length r ->
    match zipM f l r with
    | Ok zs => length zs = length l /\ forall i x, nth_error l i = Some x ->
        exists y z, nth_error r i = Some y /\ nth_error zs i = Some z /\ f x y = Ok z
    | Err e => exists i x y, nth_error l i = Some x /\ nth_error r i = Some y /\ f x y = Err e
    end.
  Proof.
    induction l as [|x l IH]; intros [|y r] H; try discriminate; simpl.
    - split; [reflexivity|]. intros [|i] x H'; discriminate.
    - destruct (f x y) as [z|e] eqn:Ef; simpl; [|exists 0, x, y; auto].
      injection H as H. specialize (IH r H). destruct (zipM f l r) as [zs|e]; simpl.
      + destruct IH as [IH1 IH2]. split; [simpl; congruence|].
        intros [|i] x' Hx; simpl in *; [injection Hx as <-; eauto|auto].
      + destruct IH as (i & x' & y' & H1 & H2 & H3). exists (S i), x', y'. auto.
  Qed.

  Lemma map2_spec isl op (a : tree A) : forall b : tree A,
    treedef no_leaf a = treedef no_leaf b ->
    match tmap2 isl op a b with
    | Ok r => leafwise2 op isl a b r
    | Err e => exists p s s', obj_leaf isl a p s /\ sub b p = Some s' /\ op s s' = Err e
    end.
  Proof.
    induction a as [x| |k cs IH] using tree_ind'; intros b Hd.
    - cbn [tmap2].
      assert (E : (if isl (Leaf x) then op (Leaf x) b else op (Leaf x) b) = op (Leaf x) b)
        by (destruct (isl (Leaf x)); reflexivity).
      rewrite E. destruct (op (Leaf x) b) as [r|e] eqn:Ef.
      + split.
        * intros p s H. inversion H; subst; exists b, r; destruct b; auto.
        * intros p sh H. inversion H.
      + exists [], (Leaf x), b. split; [apply ol_leaf|]. split; [destruct b; reflexivity|exact Ef].
    - cbn [tmap2]. destruct b as [y| |l ds]; simpl in Hd; try discriminate.
      destruct (isl TNone) eqn:El.
      + destruct (op TNone TNone) as [r|e] eqn:Ef.
        * split.
          -- intros p s H. inversion H; subst; exists TNone, r; auto.
          -- intros p sh H. apply interior_nil_shape in H. congruence.
        * exists [], TNone, TNone. split; [apply ol_isl; exact El|]. split; [reflexivity|exact Ef].
      + split.
        * intros p s H. inversion H; subst; congruence.
        * intros p sh H. inversion H; subst. reflexivity.
    - destruct b as [y| |l ds]; simpl in Hd; try discriminate. injection Hd as <- Hd.
      cbn [tmap2]. rewrite Nat.eqb_refl. destruct (isl (Node k cs)) eqn:El.
      + destruct (op (Node k cs) (Node k ds)) as [r|e] eqn:Ef.
        * split.
          -- intros p s H. inversion H; subst; [exists (Node k ds), r; auto|congruence].
          -- intros p sh H. apply interior_nil_shape in H. congruence.
        * exists [], (Node k cs), (Node k ds). split; [apply ol_isl; exact El|]. split; [reflexivity|exact Ef].
      + assert (Hlen : length cs = length ds) by (apply (f_equal (@length _)) in Hd; rewrite !map_length in Hd; exact Hd).
        assert (Hc : forall i c d, nth_error cs i = Some c -> nth_error ds i = Some d ->
                  treedef no_leaf c = treedef no_leaf d).
        { intros i c d Hc Hdd. apply (f_equal (fun l => nth_error l i)) in Hd.
          rewrite !nth_error_map, Hc, Hdd in Hd. simpl in Hd. congruence. }
        rewrite Forall_forall in IH.
        pose proof (zipM_spec (tmap2 isl op) cs ds Hlen) as HZ.
        destruct (zipM (tmap2 isl op) cs ds) as [rs|e]; simpl.
        * destruct HZ as [HL HZ].
          assert (HN : forall i c, nth_error cs i = Some c -> exists d r,
            nth_error ds i = Some d /\ nth_error rs i = Some r /\ leafwise2 op isl c d r).
          { intros i c Hn. destruct (HZ i c Hn) as (d & r & H1 & H2 & H3). exists d, r.
            split; [exact H1|]. split; [exact H2|].
            specialize (IH c (nth_error_In _ _ Hn) d (Hc i c d Hn H1)). rewrite H3 in IH. exact IH. }
          split.
          -- intros p s H. inversion H as [| |k' cs' i c p' s' Hk Hn Hl]; subst; [congruence|].
             destruct (HN i c Hn) as (d & r & H1 & H2 & H3 & _). simpl. rewrite H1, H2. apply H3; exact Hl.
          -- intros p sh H. inversion H as [|k' cs' Hk|k' cs' i c p' sh' Hk Hn Hl]; subst.
             ++ unfold shape_at; simpl. rewrite HL. reflexivity.
             ++ destruct (HN i c Hn) as (d & r & H1 & H2 & _ & H3). unfold shape_at; simpl. rewrite H2.
                apply H3; exact Hl.
        * destruct HZ as (i & c & d & H1 & H2 & H3).
          specialize (IH c (nth_error_In _ _ H1) d (Hc i c d H1 H2)). rewrite H3 in IH.
          destruct IH as (p & s & s' & Hp & Hs & Ho). exists (i :: p), s, s'.
          split; [eapply ol_down; eauto|]. split; [|exact Ho]. simpl. rewrite H2. exact Hs.
  Qed.

  Lemma binary_spec op (a : tree A) il (other : operand A) :
    match other with
    | Om b il' =>
        (compatible a b il il' -> is_leafwise2 op (isl_fn il) il a b (binary op a il other)) /\
        (~ compatible a b il il' -> binary op a il other = Err ValueError)
    | Scalar x => is_leafwise1 (fun s => op s x) (isl_fn il) il a (binary op a il other)
    | Other _ => binary op a il other = Err RuntimeError
    end.
  Proof.
    destruct other as [b il'|x|x]; simpl; [| |reflexivity].
    - unfold compatible. rewrite <- equal_code_spec, <- def_eqb_spec.
      destruct (def_eqb _ _) eqn:Ed; simpl.
      2:{ split; [intros [? _]; discriminate|reflexivity]. }
      destruct (equal_code il il') eqn:Ec; simpl.
      2:{ split; [intros [_ ?]; discriminate|reflexivity]. }
      split; [intros _|intros H; destruct H; auto].
      apply def_eqb_spec in Ed. pose proof (map2_spec (isl_fn il) op a b Ed) as H.
      destruct (tmap2 _ _ _ _) as [r|e]; simpl; [|exact H]. exists r; auto.
    - pose proof (map1_spec il (fun s => op s x) a) as H.
      destruct (tree_map1 _ _ _) as [r|e]; simpl; [|exact H]. exists r; auto.
  Qed.
End Proofs.

(** ** C51 *)
Section Props.
  Context {A : Type}.
  Variable operator : bop -> tree A -> tree A -> res (tree A).
  Variable operator1 : uop -> tree A -> res (tree A).
  Variable getitem : nat -> tree A -> res (tree A).
  Variable at_op : nat -> nat -> tree A -> tree A -> res (tree A).

  (** Two wrapped pytrees. *)
  Theorem C51_leafwise o a b il il' :
    (compatible a b il il' ->
       is_leafwise2 (operator o) (isl_fn il) il a b (py_binary operator o (Om a il) (Om b il'))) /\
    (~ compatible a b il il' -> py_binary operator o (Om a il) (Om b il') = Err ValueError).
  Proof. destruct o; exact (binary_spec (operator _) a il (Om b il')). Qed.

  (** A scalar on the right, and on the left: it is combined with every leaf, in the order
      written; a comparison [x < leaf] is carried out as [leaf > x]. *)
  Definition mirrored (o : bop) : option bop :=
    match o with
    | OLt => Some OGt | OGt => Some OLt | OLe => Some OGe | OGe => Some OLe
    | OEq => Some OEq | ONe => Some ONe | _ => None
    end.
  Theorem C51_scalar o a il x :
    is_leafwise1 (fun s => operator o s x) (isl_fn il) il a
      (py_binary operator o (Om a il) (Scalar x)) /\
    is_leafwise1 (fun s => match mirrored o with
                           | None => operator o x s
                           | Some o' => operator o' s x
                           end) (isl_fn il) il a
      (py_binary operator o (Scalar x) (Om a il)).
  Proof.
    split.
    - destruct o; exact (binary_spec (operator _) a il (Scalar x)).
    - destruct o; try exact (binary_spec (rev_op (operator _)) a il (Scalar x));
        exact (binary_spec (operator _) a il (Scalar x)).
  Qed.

  (** Anything else raises. *)
  Theorem C51_other o a il x :
    py_binary operator o (Om a il) (Other x) = Err RuntimeError /\
    py_binary operator o (Other x) (Om a il) = Err RuntimeError.
  Proof. destruct o; split; reflexivity. Qed.

  (** Unary operators, indexing and [call]. *)
  Theorem C51_unary o item fn a il :
    is_leafwise1 (operator1 o) (isl_fn il) il a (py_unary operator1 o a il) /\
    is_leafwise1 (getitem item) (isl_fn il) il a (omega_getitem getitem item a il) /\
    is_leafwise1 fn (isl_fn il) il a (omega_call fn a il).
  Proof.
    unfold py_unary, omega_getitem, omega_call.
    split; [|split]; match goal with |- context[tree_map1 il ?f a] =>
      pose proof (map1_spec il f a) as H; destruct (tree_map1 il f a) as [r|e]; simpl;
      [exists r; auto|exact H] end.
  Qed.

  (** In-place updates. *)
  Theorem C51_at which item a il other :
    match other with
    | Om b il' =>
        (compatible a b il il' ->
           is_leafwise2 (at_op which item) (isl_fn il) il a b (omega_at at_op which item a il other)) /\
        (~ compatible a b il il' -> omega_at at_op which item a il other = Err ValueError)
    | Scalar x =>
        is_leafwise1 (fun s => at_op which item s x) (isl_fn il) il a
          (omega_at at_op which item a il other)
    | Other _ => omega_at at_op which item a il other = Err RuntimeError
    end.
  Proof. exact (binary_spec (at_op which item) a il other). Qed.
End Props.
Print Assumptions C51_leafwise.
Print Assumptions C51_scalar.
Print Assumptions C51_other.
Print Assumptions C51_unary.
Print Assumptions C51_at.

(** [is_leaf] functions are compared by bytecode only, so two different functions can pass
    for equal (also [None] and any callable without [__code__]): the sum of two wrapped trees
    then depends on the order of the operands. Lists (kind 0) are concatenated by [+]. *)
Definition nat_add (o : bop) (x y : tree nat) : res (tree nat) :=
  match x, y with
  | Leaf a, Leaf b => Ok (Leaf (a + b))
  | Node 0 cs, Node 0 ds => Ok (Node 0 (cs ++ ds))
  | _, _ => Err TypeError
  end.
Theorem C51_is_leaf_refuted :
  let f : isleaf nat := ILNone in
  let g : isleaf nat := ILObj (fun t => match t with Node 0 _ => true | _ => false end) in
  let a := Node 0 [Leaf 1] in
  py_binary nat_add OAdd (Om a f) (Om a g) = Ok (Om (Node 0 [Leaf 2]) f) /\
  py_binary nat_add OAdd (Om a g) (Om a f) = Ok (Om (Node 0 [Leaf 1; Leaf 1]) g).
Proof. split; reflexivity. Qed.
Print Assumptions C51_is_leaf_refuted.

(** The structures are compared without [is_leaf]: leaves declared by [is_leaf] must agree in
    structure too, although the operator could combine them. *)
Theorem C51_below_leaf_refuted :
  let g : isleaf nat := ILFun 1 (fun t => match t with Node 0 _ => true | _ => false end) in
  let a := Node 0 [Leaf 1] in
  let b := Node 0 [Leaf 2; Leaf 3] in
  nat_add OAdd a b = Ok (Node 0 [Leaf 1; Leaf 2; Leaf 3]) /\
  treedef (isl_fn g) a = treedef (isl_fn g) b /\
  py_binary nat_add OAdd (Om a g) (Om b g) = Err ValueError.
Proof. repeat split. Qed.
Print Assumptions C51_below_leaf_refuted.

(** Non-vacuity. *)
Example omega_example :
  py_binary nat_add OAdd (Om (Node 1 [Leaf 1; TNone; Leaf 2]) ILNone)
                         (Om (Node 1 [Leaf 10; TNone; Leaf 20]) ILNone)
  = Ok (Om (Node 1 [Leaf 11; TNone; Leaf 22]) ILNone) /\
  py_binary nat_add OAdd (Scalar (Leaf 5)) (Om (Node 1 [Leaf 1; Leaf 2]) ILNone)
  = Ok (Om (Node 1 [Leaf 6; Leaf 7]) ILNone).
Proof. split; reflexivity. Qed.
