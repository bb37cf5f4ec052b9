(** Facts about pytrees. *)
From Verif Require Export Tree_Model.

(** Subtree at a path of child indices. *)
Fixpoint sub {A} (t : tree A) (p : list nat) : option (tree A) :=
  match p with
  | [] => Some t
  | i :: p' =>
      match t with
      | Node _ cs => match nth_error cs i with Some c => sub c p' | None => None end
      | _ => None
      end
  end.

Lemma zipM_length {A B C} (f : A -> B -> res C) l r ys :
  zipM f l r = Ok ys -> length l = length ys /\ length r = length ys.
Proof.
  revert r ys; induction l as [|x l IH]; intros [|y r] ys H; simpl in H;
    bind_inv; try discriminate; [split; reflexivity|].
  simpl; edestruct IH; eauto.
Qed.

Lemma zipM_nth {A B C} (f : A -> B -> res C) l r ys :
  zipM f l r = Ok ys -> forall i z, nth_error ys i = Some z ->
  exists x y, nth_error l i = Some x /\ nth_error r i = Some y /\ f x y = Ok z.
Proof.
  revert r ys; induction l as [|x l IH]; intros [|y r] ys H i z Hi; simpl in H;
    bind_inv; try discriminate.
  - destruct i; discriminate.
  - destruct i; simpl in *; [injection Hi; intros; subst; eauto|eauto].
Qed.

Lemma zipM_nth_r {A B C} (f : A -> B -> res C) l r ys :
  zipM f l r = Ok ys -> forall i y, nth_error r i = Some y ->
  exists x z, nth_error l i = Some x /\ nth_error ys i = Some z /\ f x y = Ok z.
Proof.
  intros H i y Hy.
  destruct (zipM_length _ _ _ _ H) as [H1 H2].
  destruct (nth_error_ge_ex ys i) as [z Hz]; [apply nth_error_lt in Hy; lia|].
  destruct (zipM_nth _ _ _ _ H _ _ Hz) as (x & y' & Hx & Hy' & Hf).
  rewrite Hy in Hy'; injection Hy' as <-; eauto.
Qed.

Lemma zipM_nth_l {A B C} (f : A -> B -> res C) l r ys :
  zipM f l r = Ok ys -> forall i x, nth_error l i = Some x ->
  exists y z, nth_error r i = Some y /\ nth_error ys i = Some z /\ f x y = Ok z.
Proof.
  intros H i x Hx.
  destruct (zipM_length _ _ _ _ H) as [H1 H2].
  destruct (nth_error_ge_ex ys i) as [z Hz]; [apply nth_error_lt in Hx; lia|].
  destruct (zipM_nth _ _ _ _ H _ _ Hz) as (x' & y & Hx' & Hy' & Hf).
  rewrite Hx in Hx'; injection Hx' as <-; eauto.
Qed.

Lemma rmap_ok {A B} (f : A -> B) x b : rmap f x = Ok b -> exists a, x = Ok a /\ b = f a.
Proof. destruct x; simpl; intros H; [injection H; eauto|discriminate]. Qed.

(** Flatten/unflatten round trip. *)
Lemma unflat_app {A} isl (t : tree A) rest :
  unflat (treedef isl t) (leaves isl t ++ rest) = Ok (t, rest).
Proof.
  revert rest; induction t as [a| |k cs IH] using tree_ind'; intros rest; simpl.
  - destruct (isl (Leaf a)); reflexivity.
  - destruct (isl TNone); reflexivity.
  - destruct (isl (Node k cs)); [reflexivity|].
    simpl.
    assert (H : forall rest, unflats unflat (map (treedef isl) cs)
                (concat (map (leaves isl) cs) ++ rest) = Ok (cs, rest)).
    { induction IH as [|c cs Hc _ IHcs]; intros r; simpl; [reflexivity|].
      rewrite <- app_assoc, Hc; simpl; rewrite IHcs; reflexivity. }
    rewrite H; reflexivity.
Qed.

Lemma unflatten_flatten {A} isl (t : tree A) :
  unflatten (treedef isl t) (leaves isl t) = Ok t.
Proof.
  unfold unflatten. rewrite <- (app_nil_r (leaves isl t)), unflat_app. reflexivity.
Qed.

(** Number of leaf slots of a treedef. *)
Fixpoint slots (d : tree unit) : nat :=
  match d with
  | Leaf _ => 1
  | TNone => 0
  | Node _ ds => list_sum (map slots ds)
  end.

Lemma slots_leaves {A} isl (t : tree A) : slots (treedef isl t) = length (leaves isl t).
Proof.
  induction t as [a| |k cs IH] using tree_ind'; simpl.
  - destruct (isl (Leaf a)); reflexivity.
  - destruct (isl TNone); reflexivity.
  - destruct (isl (Node k cs)); [reflexivity|]. simpl.
    induction IH as [|c cs Hc _ IHcs]; simpl; [reflexivity|].
    rewrite app_length, Hc, IHcs; reflexivity.
Qed.

Lemma unflat_total {A} (d : tree unit) : forall (ls rest : list (tree A)),
  length ls = slots d -> exists t, unflat d (ls ++ rest) = Ok (t, rest).
Proof.
  induction d as [a| |k ds IH] using tree_ind'; intros ls rest H; simpl in *.
  - destruct ls as [|x [|y ls]]; try discriminate; simpl; eauto.
  - destruct ls; [simpl; eauto | discriminate].
  - assert (Hs : forall (ls rest : list (tree A)), length ls = list_sum (map slots ds) ->
        exists ts, unflats unflat ds (ls ++ rest) = Ok (ts, rest)).
    { clear ls rest H.
      induction IH as [|d ds Hd _ IHds]; intros ls rest H; simpl in *.
      - destruct ls; [simpl; eauto|discriminate].
      - rewrite <- (firstn_skipn (slots d) ls), <- app_assoc.
        destruct (Hd (firstn (slots d) ls) (skipn (slots d) ls ++ rest)) as [t Ht].
        { rewrite firstn_length; lia. }
        rewrite Ht; simpl.
        destruct (IHds (skipn (slots d) ls) rest) as [ts Hts].
        { rewrite skipn_length; lia. }
        rewrite Hts; simpl; eauto. }
    destruct (Hs ls rest H) as [ts Hts]; rewrite Hts; simpl; eauto.
Qed.

Lemma unflat_consumes {A} (d : tree unit) : forall (ls rest : list (tree A)) t,
  unflat d ls = Ok (t, rest) -> exists pre, ls = pre ++ rest /\ length pre = slots d.
Proof.
  induction d as [a| |k ds IH] using tree_ind'; intros ls rest t H; simpl in *.
  - destruct ls as [|x ls]; [discriminate|]. injection H as <- <-. exists [x]; auto.
  - injection H as <- <-. exists []; auto.
  - apply bind_ok in H; destruct H as [[ts ls'] [H1 H2]]; injection H2 as <- <-.
    revert ls ls' ts H1.
    induction IH as [|d ds Hd _ IHds]; intros ls ls' ts H1; simpl in *.
    + injection H1 as <- <-. exists []; auto.
    + apply bind_ok in H1; destruct H1 as [[t ls1] [H1 H2]].
      apply bind_ok in H2; destruct H2 as [[ts' ls2] [H2 H3]]. injection H3 as <- <-.
      destruct (Hd _ _ _ H1) as [p1 [E1 L1]].
      destruct (IHds _ _ _ H2) as [p2 [E2 L2]].
      exists (p1 ++ p2); subst; rewrite app_assoc, app_length; auto.
Qed.

Lemma unflatten_ok_iff {A} (d : tree unit) (ls : list (tree A)) :
  (exists t, unflatten d ls = Ok t) <-> length ls = slots d.
Proof.
  unfold unflatten; split.
  - intros [t H]. apply bind_ok in H; destruct H as [[t' rest] [H1 H2]].
    destruct rest; [|discriminate].
    destruct (unflat_consumes _ _ _ _ H1) as [pre [E L]].
    rewrite app_nil_r in E; subst; exact L.
  - intros H. destruct (unflat_total d ls [] H) as [t Ht].
    rewrite app_nil_r in Ht; rewrite Ht; simpl; eauto.
Qed.

(** Unflattening genuine leaves and flattening again. *)
Definition is_Leaf {A} (t : tree A) : Prop := exists a, t = Leaf a.

Lemma unflat_leaves {A} (d : tree unit) : forall (ls rest : list (tree A)) t,
  unflat d ls = Ok (t, rest) -> Forall is_Leaf ls ->
  treedef no_leaf t = d /\ ls = leaves no_leaf t ++ rest.
Proof.
  induction d as [[]| |k ds IH] using tree_ind'; intros ls rest t H HL; simpl in H.
  - destruct ls as [|x ls]; [discriminate|]. injection H as <- <-.
    inversion HL as [|? ? [a ->] _]; subst. auto.
  - injection H as <- <-. auto.
  - apply bind_ok in H; destruct H as [[ts ls'] [H1 H2]]; injection H2 as <- <-.
    simpl.
    assert (Hg : map (treedef no_leaf) ts = ds /\ ls = concat (map (leaves no_leaf) ts) ++ ls').
    { revert ls ls' ts H1 HL.
      induction IH as [|d ds Hd _ IHds]; intros ls ls' ts H1 HL; simpl in *.
      - injection H1 as <- <-. auto.
      - apply bind_ok in H1; destruct H1 as [[t ls1] [H1 H2]].
        apply bind_ok in H2; destruct H2 as [[ts' ls2] [H2 H3]]. injection H3 as <- <-.
        destruct (Hd _ _ _ H1 HL) as [E1 E2]. subst ls.
        apply Forall_app in HL; destruct HL as [_ HL].
        destruct (IHds _ _ _ H2 HL) as [E3 E4]. subst ls1. simpl. rewrite <- app_assoc.
        split; [congruence|reflexivity]. }
    destruct Hg as [-> ->]; auto.
Qed.

Lemma flatten_unflatten {A} (d : tree unit) (ls : list (tree A)) t :
  unflatten d ls = Ok t -> Forall is_Leaf ls ->
  treedef no_leaf t = d /\ leaves no_leaf t = ls.
Proof.
  unfold unflatten. intros H HL. apply bind_ok in H; destruct H as [[t' rest] [H1 H2]].
  destruct rest; [|discriminate]. injection H2 as <-.
  destruct (unflat_leaves _ _ _ _ H1 HL) as [-> E]. rewrite app_nil_r in E. auto.
Qed.

Lemma leaves_are_Leaf {A} (t : tree A) : Forall is_Leaf (leaves no_leaf t).
Proof.
  induction t as [a| |k cs IH] using tree_ind'; simpl.
  - repeat constructor. exists a; reflexivity.
  - constructor.
  - induction IH as [|c cs Hc _ IHcs]; simpl; [constructor|]. apply Forall_app; auto.
Qed.
