(** Lemmas on tracing and closure conversion. *)
From Verif Require Import Filters_Proofs.
From Verif Require Export Leafwise Closure_Model.

Lemma flat_labels {L} (t : tree L) : flat t = labels t.
Proof.
  unfold flat. rewrite leaves_labels. induction (labels t) as [|a l IH]; simpl; [reflexivity|]. rewrite IH. reflexivity.
Qed.
Lemma unflatten_map {A B} (h : A -> B) (t : tree A) :
  unflatten (treedef no_leaf t) (map (fun a => Leaf (h a)) (labels t)) = Ok (lw (fun a => Leaf (h a)) t).
Proof.
  assert (E : treedef no_leaf t = treedef no_leaf (lw (fun a => Leaf (h a)) t)).
  { rewrite <- (lw_id t) at 1. apply treedef_lw; auto. }
  rewrite E. rewrite <- (unflatten_flatten no_leaf (lw (fun a => Leaf (h a)) t)). f_equal.
  rewrite leaves_labels, labels_lw.
  induction (labels t) as [|a l IH]; simpl; [reflexivity|]. rewrite IH. reflexivity.
Qed.
Lemma unflatten_other {A B} (t : tree A) (u : tree B) :
  treedef no_leaf t = treedef no_leaf u -> unflatten (treedef no_leaf t) (map Leaf (labels u)) = Ok u.
Proof. intros ->. rewrite (unflatten_map (fun a => a)). rewrite lw_id. reflexivity. Qed.
Lemma unflatten_flatten' {L} (t : tree L) : unflatten' (flatten t) = Ok t.
Proof. unfold unflatten', flatten. cbn [fst snd]. rewrite flat_labels. apply unflatten_other. reflexivity. Qed.
Lemma labels_treedef {A B} (t : tree A) (u : tree B) :
  treedef no_leaf t = treedef no_leaf u -> length (labels t) = length (labels u).
Proof.
  intros H. assert (E : forall C (v : tree C), length (labels v) = slots (treedef no_leaf v)).
  { intros C v. rewrite <- (map_length (@Leaf C)), <- leaves_labels. symmetry. apply slots_leaves. }
  rewrite !E, H. reflexivity.
Qed.
Lemma labels_filter {L} (g : L -> bool) (t : tree L) : labels (lw (fun a => if g a then Leaf a else TNone) t) = List.filter g (labels t).
Proof.
  rewrite labels_lw. induction (labels t) as [|a l IH]; simpl; [reflexivity|]. destruct (g a); simpl; rewrite IH; reflexivity.
Qed.

Section TreeEqual.
  Context {L : Type}.
  Variable leq : L -> L -> bool.
  Notation T := (tree L).
  Lemma all2_app l1 l2 m1 m2 : length l1 = length m1 ->
    all2 leq (l1 ++ l2) (m1 ++ m2) = all2 leq l1 m1 && all2 leq l2 m2.
  Proof.
    revert m1. induction l1 as [|a l1 IH]; intros [|b m1] H; simpl in *; try discriminate; auto.
    rewrite IH by lia. apply andb_assoc.
  Qed.
  (** Trees that are equal leaf by leaf are two readings of one tree. *)
  Lemma tree_equal_zip (t u : T) : tree_equal leq t u = true <->
    exists z : tree (L * L), lw (fun p => Leaf (fst p)) z = t /\ lw (fun p => Leaf (snd p)) z = u /\
                             forall p, In p (labels z) -> leq (fst p) (snd p) = true.
  Proof.
    unfold tree_equal. rewrite !flat_labels. split.
    - intros H. apply andb_prop in H as [H1 H2]. apply tdef_eqb_spec in H1.
      revert u H1 H2. induction t as [a| |k cs IH] using tree_ind'; intros u H1 H2.
      + destruct u as [b| |]; try discriminate. exists (Leaf (a, b)). repeat split.
        simpl in *. intros p [<-|[]]. simpl. rewrite andb_true_r in H2. exact H2.
      + destruct u; try discriminate. exists TNone. repeat split. intros p [].
      + destruct u as [b| |k' ds]; try discriminate. cbn [treedef no_leaf] in H1. injection H1 as -> H1. cbn [labels] in H2.
        assert (G : exists zs, map (lw (fun p : L * L => Leaf (fst p))) zs = cs /\ map (lw (fun p : L * L => Leaf (snd p))) zs = ds /\
                    forall p, In p (concat (map labels zs)) -> leq (fst p) (snd p) = true).
        { revert ds H1 H2. induction IH as [|c cs Hc _ IHcs]; intros [|d ds] H1 H2; simpl in H1; try discriminate.
          - exists []. repeat split. intros p [].
          - injection H1 as H1a H1b. simpl in H2. rewrite all2_app in H2 by (apply labels_treedef; exact H1a).
            apply andb_prop in H2 as [H2a H2b]. destruct (Hc d H1a H2a) as (z & <- & <- & Hz).
            destruct (IHcs ds H1b H2b) as (zs & <- & <- & Hzs). exists (z :: zs). repeat split.
            intros p Hp. simpl in Hp. apply in_app_or in Hp as [Hp|Hp]; auto. }
        destruct G as (zs & <- & <- & Hz). exists (Node k' zs). repeat split. exact Hz.
    - intros (z & <- & <- & Hz). apply andb_true_intro. split.
      + apply tdef_eqb_spec. apply treedef_lw; auto.
      + rewrite !labels_lw. revert Hz. induction (labels z) as [|p l IH]; simpl; intros Hz; [reflexivity|].
        rewrite (Hz p) by auto. simpl. apply IH. auto.
  Qed.
  Lemma tree_equal_lw {A} (f g : A -> T) (z : tree A) :
    (forall a, In a (labels z) -> match f a, g a with Leaf x, Leaf y => leq x y = true | TNone, TNone => True | _, _ => False end) ->
    tree_equal leq (lw f z) (lw g z) = true.
  Proof.
    intros H. unfold tree_equal. rewrite !flat_labels. apply andb_true_intro. split.
    - apply tdef_eqb_spec. apply treedef_lw; auto. intros a Ha. specialize (H a Ha). destruct (f a), (g a); try contradiction; reflexivity.
    - rewrite !labels_lw. revert H. induction (labels z) as [|a l IH]; simpl; intros H; [reflexivity|].
      assert (Ha := H a (or_introl eq_refl)). assert (IH' := IH (fun b Hb => H b (or_intror Hb))).
      destruct (f a), (g a); try contradiction; simpl; [rewrite Ha, IH'; reflexivity|exact IH'].
  Qed.
  Lemma tree_equal_lw_inv {A} (f g : A -> T) (z : tree A) : (forall a, small (f a)) -> (forall a, small (g a)) ->
    tree_equal leq (lw f z) (lw g z) = true ->
    forall a, In a (labels z) -> match f a, g a with Leaf x, Leaf y => leq x y = true | TNone, TNone => True | _, _ => False end.
  Proof.
    intros Hf Hg H. unfold tree_equal in H. rewrite !flat_labels, !labels_lw in H. apply andb_prop in H as [H1 H2].
    apply tdef_eqb_spec in H1. pose proof (treedef_lw_inv _ _ _ H1) as H3. clear H1. revert H2 H3.
    induction (labels z) as [|b l IH]; simpl; intros H2 H3 a Ha; [contradiction|].
    assert (Hb := H3 b (or_introl eq_refl)). rewrite all2_app in H2 by (apply labels_treedef; exact Hb).
    apply andb_prop in H2 as [H2a H2b]. destruct Ha as [<-|Ha]; [|apply IH; auto].
    specialize (Hf b). specialize (Hg b). destruct (f b), (g b); simpl in *; try contradiction; try discriminate; auto.
    rewrite andb_true_r in H2a. exact H2a.
  Qed.
  (** Trees that agree in two complementary views are two readings of one tree. *)
  Lemma zip_two {X} (F G : L -> tree X) (F' G' : L -> tree X) (t u : T) :
    (forall a, (F a = TNone /\ exists x, G a = Leaf x) \/ (G a = TNone /\ exists x, F a = Leaf x)) ->
    (forall a, (F' a = TNone /\ exists x, G' a = Leaf x) \/ (G' a = TNone /\ exists x, F' a = Leaf x)) ->
    treedef no_leaf (lw F t) = treedef no_leaf (lw F' u) ->
    treedef no_leaf (lw G t) = treedef no_leaf (lw G' u) ->
    exists z : tree (L * L), lw (fun p => Leaf (fst p)) z = t /\ lw (fun p => Leaf (snd p)) z = u.
  Proof.
    intros HF HF'. revert u. induction t as [a| |k cs IH] using tree_ind'; intros u H1 H2; cbn [lw] in H1, H2.
    - destruct u as [b| |k ds].
      + exists (Leaf (a, b)). auto.
      + exfalso. cbn in H1, H2. destruct (HF a) as [[E [x Ex]]|[E [x Ex]]]; rewrite ?E, ?Ex in *; discriminate.
      + exfalso. cbn in H1, H2. destruct (HF a) as [[E [x Ex]]|[E [x Ex]]]; rewrite ?E, ?Ex in *; discriminate.
    - destruct u as [b| |k ds].
      + exfalso. cbn in H1, H2. destruct (HF' b) as [[E [x Ex]]|[E [x Ex]]]; rewrite ?E, ?Ex in *; discriminate.
      + exists TNone. auto.
      + discriminate.
    - destruct u as [b| |k' ds].
      + exfalso. cbn in H1, H2. destruct (HF' b) as [[E [x Ex]]|[E [x Ex]]]; rewrite ?E, ?Ex in *; discriminate.
      + discriminate.
      + cbn [lw treedef no_leaf] in H1, H2. injection H1 as -> H1. injection H2 as H2. rewrite !map_map in H1, H2.
        assert (Gz : exists zs, map (lw (fun p : L * L => Leaf (fst p))) zs = cs /\ map (lw (fun p : L * L => Leaf (snd p))) zs = ds).
        { revert ds H1 H2. induction IH as [|c cs Hc _ IHcs]; intros [|d ds] H1 H2; simpl in H1; try discriminate.
          - exists []. auto.
          - injection H1 as H1a H1b. simpl in H2. injection H2 as H2a H2b.
            destruct (Hc d H1a H2a) as (z & <- & <-). destruct (IHcs ds H1b H2b) as (zs & <- & <-). exists (z :: zs). auto. }
        destruct Gz as (zs & <- & <-). exists (Node k' zs). auto.
  Qed.
End TreeEqual.
