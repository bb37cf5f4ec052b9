(** C50: what [inspect_dce] prints. *)
From Verif Require Import Filters_Proofs Tree_Rel Dce_Model.

(** ** Specification *)

Definition the_label (fired : list (nat * nat)) (n : nat) : label :=
  match find (fun p => Nat.eqb (fst p) n) fired with Some p => Alive (snd p) | None => Dced end.

(** The leaves with the [n]-th, [n+1]-th, ... array replaced by its label. *)
Fixpoint relabel (fired : list (nat * nat)) (n : nat) (l : list (tree dleaf)) : list (tree dleaf) :=
  match l with
  | [] => []
  | Leaf (DArr _) :: l' => Leaf (DLabel (the_label fired n)) :: relabel fired (S n) l'
  | x :: l' => x :: relabel fired n l'
  end.

(** [out] is [x] with a label for each array and nothing else changed. *)
Definition shows (x : tree dleaf) (fired : list (nat * nat)) (out : tree dleaf) : Prop :=
  treedef no_leaf out = treedef no_leaf x /\
  leaves no_leaf out = relabel fired 0 (leaves no_leaf x).

Definition is_label (t : tree dleaf) : bool :=
  match t with Leaf (DLabel _) => true | _ => false end.
(** The user's pytree contains none of the label objects made by [inspect_dce]. *)
Definition no_labels (x : tree dleaf) : Prop :=
  forall t, In t (leaves no_leaf x) -> is_label t = false.
Definition has_arrays (x : tree dleaf) : bool := existsb d_is_array (leaves no_leaf x).

(** ** Proofs *)

Definition dyn (g : tree dleaf -> bool) (x : tree dleaf) : tree dleaf :=
  tmap no_leaf (fun s => if g s then s else TNone) x.
Definition sta (g : tree dleaf -> bool) (x : tree dleaf) : tree dleaf :=
  tmap no_leaf (fun s => if g s then TNone else s) x.

Lemma partition_dyn x :
  eqx_partition no_leaf TNone x (Leaf (SCall d_is_array)) = Ok (dyn d_is_array x, sta d_is_array x).
Proof. apply partition_fused; split; reflexivity. Qed.

Definition swapped (a b : dleaf) : Prop :=
  match a with
  | DArr _ => exists l, b = DLabel l
  | DOther _ => b = a
  | DLabel _ => False
  end.

Lemma swap_dyn_def x : forall y, trel swapped x y ->
  treedef no_leaf (dyn d_is_array x) = treedef no_leaf (dyn is_label y).
Proof.
  induction x as [a| |k cs IH] using tree_ind'; intros y H; inversion H as [a' b Hab| |k' cs' ds HF]; subst.
  - destruct a; simpl in Hab; [destruct Hab as [l ->]|subst|contradiction]; reflexivity.
  - reflexivity.
  - unfold dyn in *; simpl. f_equal. clear H.
    induction HF as [|c d cs ds Hcd HF IHF]; simpl; [reflexivity|].
    inversion IH as [|c' cs' Hc Hcs]; subst. f_equal; auto.
Qed.

Lemma swap_sta x : forall y, trel swapped x y -> sta d_is_array x = sta is_label y.
Proof.
  induction x as [a| |k cs IH] using tree_ind'; intros y H; inversion H as [a' b Hab| |k' cs' ds HF]; subst.
  - destruct a; simpl in Hab; [destruct Hab as [l ->]|subst|contradiction]; reflexivity.
  - reflexivity.
  - unfold sta in *; simpl. f_equal. clear H.
    induction HF as [|c d cs ds Hcd HF IHF]; simpl; [reflexivity|].
    inversion IH as [|c' cs' Hc Hcs]; subst. f_equal; auto.
Qed.

Lemma dyn_leaves g x : (forall t, g t = true -> exists a, t = Leaf a) ->
  leaves no_leaf (dyn g x) = List.filter g (leaves no_leaf x).
Proof.
  intros Hg. induction x as [a| |k cs IH] using tree_ind'.
  - unfold dyn; simpl. destruct (g (Leaf a)); reflexivity.
  - reflexivity.
  - unfold dyn in *; simpl. clear k.
    induction IH as [|c cs Hc _ IHcs]; simpl; [reflexivity|].
    rewrite filter_app, Hc, IHcs; reflexivity.
Qed.

Lemma arr_leaf t : d_is_array t = true -> exists a, t = Leaf a.
Proof. destruct t as [a| |]; simpl; intros; try discriminate; eauto. Qed.
Lemma lab_leaf t : is_label t = true -> exists a, t = Leaf a.
Proof. destruct t as [a| |]; simpl; intros; try discriminate; eauto. Qed.

Lemma relabel_swapped fired l : forall n,
  Forall is_Leaf l -> (forall t, In t l -> is_label t = false) ->
  Forall2 (lrel swapped) l (relabel fired n l).
Proof.
  induction l as [|t l IH]; intros n HL Hn; simpl; [constructor|].
  inversion HL as [|t' l' Ht Hl]; subst.
  destruct t as [[c|c|lb]| |k cs]; try (destruct Ht as [z Hz]; discriminate Hz).
  - constructor; [constructor; simpl; eauto|]. apply IH; auto. intros; apply Hn; right; auto.
  - constructor; [constructor; simpl; eauto|]. apply IH; auto. intros; apply Hn; right; auto.
  - exfalso. specialize (Hn _ (or_introl eq_refl)). discriminate.
Qed.

Lemma relabel_filter fired l : forall n, (forall t, In t l -> is_label t = false) ->
  List.filter is_label (relabel fired n l)
  = map (fun j => Leaf (DLabel (the_label fired j))) (seq n (length (List.filter d_is_array l))).
Proof.
  induction l as [|t l IH]; intros n Hn; simpl; [reflexivity|].
  assert (Hl : forall t, In t l -> is_label t = false) by (intros; apply Hn; right; auto).
  specialize (Hn _ (or_introl eq_refl)).
  destruct t as [[c|c|lb]| |k cs]; simpl in *; try discriminate; rewrite IH; auto.
Qed.

Lemma relabel_length fired l : forall n, length (relabel fired n l) = length l.
Proof. induction l as [|[[]| |] l IH]; intros n; simpl; auto. Qed.

Lemma num_leaves_slots d : num_leaves d = slots d.
Proof. reflexivity. Qed.

Lemma lookup_find fired j :
  match lookup_alive fired j with Some s => Alive s | None => Dced end = the_label fired j.
Proof.
  unfold the_label. induction fired as [|[i s] l IH]; simpl; [reflexivity|].
  destruct (Nat.eqb i j); [reflexivity|exact IH].
Qed.

Lemma unflat_err {A} (d : tree unit) : forall (ls : list (tree A)) e,
  unflat d ls = Err e -> e = ValueError.
Proof.
  induction d as [a| |k ds IH] using tree_ind'; intros ls e H; simpl in H.
  - destruct ls; [injection H as <-; reflexivity|discriminate].
  - discriminate.
  - assert (Hs : forall ls e, unflats (@unflat A) ds ls = Err e -> e = ValueError).
    { clear -IH. induction IH as [|d ds Hd _ IHds]; intros ls e H; simpl in H; [discriminate|].
      apply bind_err in H as [H|([t l1] & _ & H)]; [eapply Hd; exact H|].
      apply bind_err in H as [H|([ts l2] & _ & H)]; [eapply IHds; exact H|discriminate]. }
    apply bind_err in H as [H|([ts l2] & _ & H)]; [eapply Hs; exact H|discriminate].
Qed.

Lemma relabelled_exists x fired : no_labels x ->
  exists out, shows x fired out /\ trel swapped x out.
Proof.
  intros Hn.
  destruct (proj2 (unflatten_ok_iff (treedef no_leaf x) (relabel fired 0 (leaves no_leaf x)))) as [out Ho].
  { rewrite relabel_length, slots_leaves; reflexivity. }
  assert (HF : Forall2 (lrel swapped) (leaves no_leaf x) (relabel fired 0 (leaves no_leaf x))).
  { apply relabel_swapped; [apply leaves_are_Leaf|exact Hn]. }
  assert (HL : Forall is_Leaf (relabel fired 0 (leaves no_leaf x))).
  { clear -HF. induction HF as [|u v l r Huv _ IH]; constructor; [|exact IH].
    inversion Huv; eexists; reflexivity. }
  apply flatten_unflatten in Ho; [|exact HL]. destruct Ho as [H2 H1].
  exists out. split; [split; [exact H2|exact H1]|].
  apply trel_of_leaves; [symmetry; exact H2|]. rewrite H1; exact HF.
Qed.

Lemma entry_shown x fired e : no_labels x -> store_entry x fired = Ok e ->
  exists out, shows x fired out /\
    (o <- unflatten (edef e) (entry_labels e) ;; eqx_combine no_leaf [o; estatic e]) = Ok out.
Proof.
  intros Hn He. unfold store_entry in He. rewrite partition_dyn in He. simpl in He.
  injection He as <-. destruct (relabelled_exists x fired Hn) as (out & Hs & Hr).
  exists out; split; [exact Hs|]. cbn [edef estatic].
  assert (HL : entry_labels (mk_entry fired (treedef no_leaf (dyn d_is_array x)) (sta d_is_array x))
               = leaves no_leaf (dyn is_label out)).
  { unfold entry_labels; simpl. rewrite dyn_leaves by exact lab_leaf.
    destruct Hs as [_ ->]. rewrite relabel_filter by exact Hn.
    rewrite num_leaves_slots, slots_leaves, dyn_leaves by exact arr_leaf.
    apply map_ext; intros j. rewrite lookup_find; reflexivity. }
  rewrite HL, (swap_dyn_def _ _ Hr), unflatten_flatten; cbn [bind].
  rewrite (swap_sta _ _ Hr). rewrite combine_two.
  apply roundtrip_tmap. intros t t' _; reflexivity.
Qed.

Lemma entry_count x fired e : store_entry x fired = Ok e ->
  slots (edef e) = length (List.filter d_is_array (leaves no_leaf x)).
Proof.
  unfold store_entry. rewrite partition_dyn. simpl. intros H; injection H as <-. simpl.
  rewrite slots_leaves, dyn_leaves by exact arr_leaf. reflexivity.
Qed.

Lemma no_arrays_count x : has_arrays x = false <-> length (List.filter d_is_array (leaves no_leaf x)) = 0.
Proof.
  unfold has_arrays. induction (leaves no_leaf x) as [|t l IH]; simpl; [tauto|].
  destruct (d_is_array t); simpl; [split; discriminate|exact IH].
Qed.

Lemma entry_labels_length e : length (entry_labels e) = slots (edef e).
Proof. unfold entry_labels. rewrite map_length, seq_length. apply num_leaves_slots. Qed.

Definition stored (xf : tree dleaf * list (nat * nat)) (e : dce_entry) : Prop :=
  no_labels (fst xf) /\ store_entry (fst xf) (snd xf) = Ok e.
Definition shown (xf : tree dleaf * list (nat * nat)) (out : tree dleaf) : Prop :=
  shows (fst xf) (snd xf) out.

Lemma inspect_prefix pre : forall es rest,
  Forall2 stored pre es -> (forall xf, In xf pre -> has_arrays (fst xf) = false) ->
  exists outs, Forall2 shown pre outs /\
    inspect_loop [] (es ++ rest) =
    (outs ++ fst (inspect_loop [] rest), snd (inspect_loop [] rest)).
Proof.
  induction pre as [|xf pre IH]; intros es rest HF Hp; inversion HF as [|a e p es' Hs HF']; subst.
  - exists []. split; [constructor|]. simpl. apply surjective_pairing.
  - destruct Hs as [Hn He]. destruct (entry_shown _ _ _ Hn He) as (out & Ho & Hi).
    destruct (IH es' rest HF') as (outs & HO & HI); [intros; apply Hp; right; auto|].
    exists (out :: outs). split; [constructor; auto|].
    cbn [inspect_loop app]. rewrite Hi.
    assert (H0 : entry_labels e = []).
    { apply length_zero_iff_nil. rewrite entry_labels_length, (entry_count _ _ _ He).
      apply no_arrays_count, Hp; left; reflexivity. }
    rewrite H0, HI. reflexivity.
Qed.

(** ** C50 *)

(** [store_dce(x)] returns [x]. *)
Theorem C50_store_identity x : store_result x = Ok x.
Proof.
  unfold store_result. rewrite partition_dyn. cbn [bind].
  rewrite unflatten_flatten; cbn [bind]. rewrite combine_two.
  apply roundtrip_tmap. intros t t' _; reflexivity.
Qed.
Print Assumptions C50_store_identity.

(** As long as only the last of the stored pytrees contains arrays (in particular with a
    single entry), every entry is printed with one label per array. *)
Theorem C50_last_partial pre xf es e :
  Forall2 stored pre es -> (forall y, In y pre -> has_arrays (fst y) = false) ->
  stored xf e ->
  exists outs, inspect_dce (es ++ [e]) = (outs, None) /\ Forall2 shown (pre ++ [xf]) outs.
Proof.
  intros HF Hp [Hn He].
  destruct (inspect_prefix pre es [e] HF Hp) as (outs & HO & HI).
  destruct (entry_shown _ _ _ Hn He) as (out & Ho & Hi).
  exists (outs ++ [out]). unfold inspect_dce. rewrite HI. cbn [inspect_loop app]. rewrite Hi. simpl.
  split; [reflexivity|]. apply Forall2_app; [exact HO|]. constructor; [exact Ho|constructor].
Qed.
Print Assumptions C50_last_partial.

(** Otherwise the first entry after one with arrays makes [inspect_dce] raise: [new_leaves]
    still holds the labels of the earlier entries. *)
Theorem C50_fails pre xf es e e' later :
  Forall2 stored pre es -> (forall y, In y pre -> has_arrays (fst y) = false) ->
  stored xf e -> has_arrays (fst xf) = true ->
  exists outs, inspect_dce (es ++ e :: e' :: later) = (outs, Some ValueError) /\
    Forall2 shown (pre ++ [xf]) outs.
Proof.
  intros HF Hp [Hn He] Ha.
  destruct (inspect_prefix pre es (e :: e' :: later) HF Hp) as (outs & HO & HI).
  destruct (entry_shown _ _ _ Hn He) as (out & Ho & Hi).
  exists (outs ++ [out]). unfold inspect_dce. rewrite HI.
  assert (Hu : @unflatten dleaf (edef e') (entry_labels e ++ entry_labels e') = Err ValueError).
  { assert (Hl : length (entry_labels e ++ entry_labels e') <> slots (edef e')).
    { rewrite app_length, !entry_labels_length, (entry_count _ _ _ He).
      assert (length (List.filter d_is_array (leaves no_leaf (fst xf))) <> 0); [|lia].
      intros E. apply no_arrays_count in E. congruence. }
    unfold unflatten.
    destruct (unflat (edef e') (entry_labels e ++ entry_labels e')) as [[t rest]|x] eqn:E; simpl.
    - destruct rest; [|reflexivity]. exfalso. apply Hl.
      apply unflat_consumes in E as (p & -> & <-). rewrite app_nil_r; reflexivity.
    - f_equal. exact (unflat_err _ _ _ E). }
  cbn [inspect_loop app]. rewrite Hi, Hu. simpl.
  split; [reflexivity|]. apply Forall2_app; [exact HO|]. constructor; [exact Ho|constructor].
Qed.
Print Assumptions C50_fails.

(** So two calls of [store_dce] on one array each cannot be inspected. *)
Theorem C50_two_entries_refuted :
  exists x e, no_labels x /\ store_entry x [] = Ok e /\
    snd (inspect_dce [e; e]) = Some ValueError.
Proof.
  exists (Leaf (DArr 0)). eexists. split; [|split; [reflexivity|reflexivity]].
  intros t [<-|[]]; reflexivity.
Qed.
Print Assumptions C50_two_entries_refuted.

(** Non-vacuity: a dictionary of an array that is alive, a number and an eliminated array. *)
Example dce_example :
  exists e, stored (Node 3 [Leaf (DArr 1); Leaf (DOther 9); Leaf (DArr 2)], [(0, 77)]) e /\
    inspect_dce [e] =
    ([Node 3 [Leaf (DLabel (Alive 77)); Leaf (DOther 9); Leaf (DLabel Dced)]], None).
Proof.
  eexists. split; [split; [|reflexivity]|reflexivity].
  intros t [<-|[<-|[<-|[]]]]; reflexivity.
Qed.
