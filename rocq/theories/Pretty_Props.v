(** C91: what is printed. *)
From Verif Require Import Pretty_Model.
Local Open Scope list_scope.

Section Ind.
  Variable A : Type.
  Variable P : obj A -> Prop.
  Hypothesis H1 : forall j sh dt w c, P (OArray j sh dt w c).
  Hypothesis H2 : forall sh dt w, P (OStruct sh dt w).
  Hypothesis H3 : forall n o, P o -> P (OCustom n o).
  Hypothesis H4 : forall f a k, P f -> P a -> P k -> P (OPartial f a k).
  Hypothesis H5 : forall n ls cs, Forall P cs -> P (ONode n ls cs).
  Hypothesis H6 : forall n s, P (OOther n s).
  Fixpoint obj_rect' (o : obj A) : P o :=
    match o with
    | OArray j sh dt w c => H1 j sh dt w c
    | OStruct sh dt w => H2 sh dt w
    | OCustom n o => H3 n o (obj_rect' o)
    | OPartial f a k => H4 f a k (obj_rect' f) (obj_rect' a) (obj_rect' k)
    | ONode n ls cs => H5 n ls cs ((fix go (l : list (obj A)) : Forall P l := match l with [] => Forall_nil _ | o :: l => Forall_cons _ (obj_rect' o) (go l) end) cs)
    | OOther n s => H6 n s
    end.
End Ind.

(** ** Specification *)
(** Equal up to the contents of arrays. *)
Inductive same_summary {A} : obj A -> obj A -> Prop :=
| SArray j sh dt w c c' : same_summary (OArray j sh dt w c) (OArray j sh dt w c')
| SStruct sh dt w : same_summary (OStruct sh dt w) (OStruct sh dt w)
| SCustom n o o' : same_summary o o' -> same_summary (OCustom n o) (OCustom n o')
| SPartial f f' a a' k k' : same_summary f f' -> same_summary a a' -> same_summary k k' -> same_summary (OPartial f a k) (OPartial f' a' k')
| SNode n ls cs cs' : Forall2 same_summary cs cs' -> same_summary (ONode n ls cs) (ONode n ls cs')
| SOther n s : same_summary (OOther n s) (OOther n s).
(** [shown_at o p s]: [s] is printed inside [o], at the labels [p], through containers and dataclasses only; [cut]: objects whose inside is not shown. *)
Inductive shown_at {A} (cut : obj A -> bool) : obj A -> list string -> obj A -> Prop :=
| ShHere o : shown_at cut o [] o
| ShIn n ls cs i l c p s : cut (ONode n ls cs) = false -> nth_error ls i = Some (true, l) -> nth_error cs i = Some c ->
    shown_at cut c p s -> shown_at cut (ONode n ls cs) (l :: p) s.
(** [doc_at d p e]: the document [e] is at the labels [p] of [d]. *)
Inductive doc_at : doc -> list string -> doc -> Prop :=
| DHere d : doc_at d [] d
| DIn n fs l d p e : In (l, d) fs -> doc_at d p e -> doc_at (DNode n fs) (l :: p) e.
(** The struct in place of each JAX array. *)
Inductive struct_of {A} : obj A -> obj A -> Prop :=
| TArray sh dt w c : struct_of (OArray true sh dt w c) (OStruct sh dt w)
| TStruct sh dt w : struct_of (OStruct sh dt w) (OStruct sh dt w)
| TNode n ls cs cs' : Forall2 struct_of cs cs' -> struct_of (ONode n ls cs) (ONode n ls cs')
| TOther n s : struct_of (OOther n s) (OOther n s).

Lemma fields_in ls : forall ds i l d, nth_error ls i = Some (true, l) -> nth_error ds i = Some d -> In (l, d) (fields_of ls ds).
Proof.
  induction ls as [|[s l0] ls IH]; intros [|d0 ds] [|i] l d Hl Hd; cbn [nth_error fields_of] in *; try discriminate.
  - injection Hl as -> ->. injection Hd as ->. left. auto.
  - destruct s; [right|]; eapply IH; eauto.
Qed.
Lemma fields_inv ls : forall ds l d, In (l, d) (fields_of ls ds) -> exists i, nth_error ls i = Some (true, l) /\ nth_error ds i = Some d.
Proof.
  induction ls as [|[s l0] ls IH]; intros [|d0 ds] l d H; cbn [fields_of] in *; try contradiction.
  destruct s.
  - destruct H as [H|H]; [injection H as -> ->; exists 0%nat; auto|]. destruct (IH ds l d H) as (i & Hi). exists (S i). auto.
  - destruct (IH ds l d H) as (i & Hi). exists (S i). auto.
Qed.

Section Props.
  Variable A : Type.
  Variable text_of : A -> string.
  Implicit Types o : obj A.

  Lemma map_docs_eq (f g : obj A -> doc) cs cs' : Forall (fun o => forall o', same_summary o o' -> f o = g o') cs -> Forall2 same_summary cs cs' -> map f cs = map g cs'.
  Proof. intros H HF. revert cs' HF. induction H as [|o cs Ho H IH]; intros cs' HF; inversion HF; subst; cbn [map]; auto. f_equal; auto. Qed.
  Lemma wl_same o : forall o', same_summary o o' -> wl_pdoc A text_of o = wl_pdoc A text_of o'.
  Proof.
    unfold wl_pdoc. induction o using obj_rect'; intros o' HS; inversion HS; subst; cbn [pdoc]; auto.
    - rewrite (IHo1 _ ltac:(eassumption)), (IHo2 _ ltac:(eassumption)), (IHo3 _ ltac:(eassumption)). auto.
    - do 2 f_equal. eapply map_docs_eq; eauto.
  Qed.

  (** With [short_arrays], as in [Module.__repr__], what is printed depends on arrays only through their shape, dtype and weak type. *)
  Theorem C91_summaries : forall struct_as_array truncate_leaf o o',
    (forall a a', same_summary a a' -> truncate_leaf a = truncate_leaf a') -> same_summary o o' ->
    tree_pdoc A text_of true struct_as_array truncate_leaf o = tree_pdoc A text_of true struct_as_array truncate_leaf o'.
  Proof.
    intros sa tl o o' Ht. unfold tree_pdoc. revert o'.
    induction o as [j sh dt w c|sh dt w|n o IHo|f a k IHf IHa IHk|n ls cs IHcs|n s] using obj_rect'; intros o' HS; pose proof (Ht _ _ HS) as HT.
    - inversion HS; subst. cbn [pdoc]. unfold custom. rewrite HT; clear HT. destruct (tl _), j; auto.
    - inversion HS; subst. auto.
    - inversion HS as [| |? ? o2 Ho| | |]; subst. cbn [pdoc]. unfold custom. rewrite HT; clear HT. destruct (tl _); auto. apply wl_same. auto.
    - inversion HS as [| | |? f2 ? a2 ? k2 Hf Ha Hk| |]; subst. cbn [pdoc]. unfold custom. rewrite HT; clear HT. destruct (tl _); auto. apply wl_same. constructor. auto.
    - inversion HS as [| | | |? ? ? cs2 Hcs|]; subst. cbn [pdoc]. unfold custom at 1 3. rewrite HT; clear HT. destruct (tl _); auto. do 2 f_equal. eapply map_docs_eq; eauto.
    - inversion HS; subst. auto.
  Qed.

  (** "Applied to all nodes in the PyTree; all truthy nodes will be truncated": for all nodes not inside a truncated one, a Partial or a custom_jvp. *)
  Theorem C91_truncated_partial : forall short_arrays struct_as_array truncate_leaf o p s, shown_at truncate_leaf o p s -> truncate_leaf s = true ->
    doc_at (tree_pdoc A text_of short_arrays struct_as_array truncate_leaf o) p (DText (append (type_name s) "(...)")).
  Proof.
    intros sh sa tl o p s H Hs. unfold tree_pdoc. induction H as [o|n ls cs i l c p s Hc Hl Hn H IH].
    - destruct o; cbn [pdoc]; unfold custom; rewrite Hs; constructor.
    - cbn [pdoc]. unfold custom at 1. rewrite Hc. destruct sh; (eapply DIn with (d := pdoc A text_of _ (custom A text_of _ sa tl) c); [|apply IH; auto]; eapply fields_in; [eauto|rewrite nth_error_map, Hn; auto]).
  Qed.
  (** Arrays in such places: abbreviated with [short_arrays], shown otherwise. *)
  Theorem C91_arrays_partial : forall short_arrays struct_as_array truncate_leaf o p jax sh dt w c,
    shown_at truncate_leaf o p (OArray jax sh dt w c) -> truncate_leaf (OArray jax sh dt w c) = false ->
    doc_at (tree_pdoc A text_of short_arrays struct_as_array truncate_leaf o) p
      (if short_arrays then if jax then DArray sh (if w then append "weak_" dt else dt) None else DArray sh dt (Some "numpy"%string)
       else DText (text_of c)).
  Proof.
    intros short sa tl o p jax sh dt w c H Hs. unfold tree_pdoc. remember (OArray jax sh dt w c) as s eqn:Es. induction H as [o|n ls cs i l c' p s Hc Hl Hn H IH].
    - subst o. cbn [pdoc]. unfold custom. rewrite Hs. destruct short, jax; constructor.
    - cbn [pdoc]. unfold custom at 1. rewrite Hc.
      destruct short; (eapply DIn with (d := pdoc A text_of _ (custom A text_of _ sa tl) c'); [|apply IH; auto]; eapply fields_in; [eauto|rewrite nth_error_map, Hn; auto]).
  Qed.
  (** With [struct_as_array], the structure of a tree prints as the tree. *)
  Theorem C91_structs : forall truncate_leaf o o', (forall a a', struct_of a a' -> truncate_leaf a = truncate_leaf a' /\ (truncate_leaf a = true -> type_name a = type_name a')) ->
    struct_of o o' ->
    tree_pdoc A text_of true true truncate_leaf o = tree_pdoc A text_of true true truncate_leaf o'.
  Proof.
    intros tl o o' Ht. unfold tree_pdoc. revert o'.
    induction o as [j sh dt w c|sh dt w|n o IHo|f a k IHf IHa IHk|n ls cs IHcs|n s] using obj_rect'; intros o' HS; destruct (Ht _ _ HS) as [HT HN].
    - inversion HS; subst. cbn [pdoc]. unfold custom. rewrite HT in *; clear HT. destruct (tl _); auto. rewrite HN; auto.
    - inversion HS; subst. auto.
    - inversion HS.
    - inversion HS.
    - inversion HS as [| |? ? ? cs2 Hcs|]; subst. cbn [pdoc]. unfold custom at 1 3. rewrite HT in *; clear HT. destruct (tl _); auto. do 2 f_equal. clear -IHcs Hcs. revert cs2 Hcs.
      induction IHcs as [|o l Ho H IH]; intros cs2 Hcs; inversion Hcs; subst; cbn [map]; auto. f_equal; auto.
    - inversion HS; subst. auto.
  Qed.
End Props.
Print Assumptions C91_summaries.
Print Assumptions C91_truncated_partial.
Print Assumptions C91_arrays_partial.
Print Assumptions C91_structs.
(** Fields declared with [repr=False] are not printed. *)
Theorem C91_hidden : forall A (text_of : A -> string) short sa tl n ls (cs cs' : list (obj A)), tl (ONode n ls cs) = false -> tl (ONode n ls cs') = false ->
  List.length cs = List.length cs' -> (forall i l c, nth_error ls i = Some (true, l) -> nth_error cs i = Some c -> nth_error cs' i = Some c) ->
  tree_pdoc A text_of short sa tl (ONode n ls cs) = tree_pdoc A text_of short sa tl (ONode n ls cs').
Proof.
  intros A text_of short sa tl n ls cs cs' H1 H2 Hl Hs. unfold tree_pdoc. cbn [pdoc]. unfold custom at 1. unfold custom at 2. rewrite H1, H2.
  assert (E : fields_of ls (map (pdoc A text_of short (custom A text_of short sa tl)) cs) = fields_of ls (map (pdoc A text_of short (custom A text_of short sa tl)) cs')).
  { clear H1 H2. generalize (pdoc A text_of short (custom A text_of short sa tl)). intros f. revert cs cs' Hl Hs. induction ls as [|[s l] ls IH]; intros [|c cs] [|c' cs'] Hl Hs; cbn [map fields_of List.length] in *; try lia; auto.
    assert (HI : fields_of ls (map f cs) = fields_of ls (map f cs')) by (apply IH; [lia|intros i l' c0 E1 E2; exact (Hs (S i) l' c0 E1 E2)]).
    rewrite HI. destruct s; auto. specialize (Hs 0%nat l c eq_refl eq_refl). cbn in Hs. injection Hs as ->. auto. }
  destruct short; rewrite E; auto.
Qed.
Print Assumptions C91_hidden.

(** Inside a [jax.tree_util.Partial] (and a custom_jvp) the options are forgotten: [wl.pdoc(obj)] on lines 57 and 61 is called without them. *)
Definition ex_partial : obj nat := ONode "Model" [(true, "act")]%string [OPartial (OOther "function" "<function f>") (ONode "tuple" [(true, "0")]%string [OArray true [3] "f32" false 7%nat]) (ONode "dict" [] [])].
Definition shows (x : nat) : string := if Nat.eqb x 7 then "Array(7)" else "Array(?)".
Definition in_doc (e d : doc) : Prop := exists p, doc_at d p e.
Lemma doc_at_arr sh dt k e p : doc_at (DArray sh dt k) p e -> e = DArray sh dt k.
Proof. intros H. inversion H; auto. Qed.
Lemma doc_at_text s e p : doc_at (DText s) p e -> e = DText s.
Proof. intros H. inversion H; auto. Qed.
Ltac no_doc := repeat match goal with
  | H : doc_at (DNode _ _) _ _ |- _ => inversion H; subst; clear H
  | H : doc_at (DText _) _ _ |- _ => apply doc_at_text in H
  | H : doc_at (DArray _ _ _) _ _ |- _ => apply doc_at_arr in H
  | H : In _ _ |- _ => cbn in H
  | H : _ \/ _ |- _ => destruct H
  | H : False |- _ => contradiction
  | H : (_, _) = (_, _) |- _ => injection H; clear H; intros; subst
  end; try discriminate.
Theorem C91_truncate_refuted : let tl := fun o : obj nat => match o with OArray _ _ _ _ _ => true | _ => false end in
  ~ in_doc (DText "ArrayImpl(...)") (tree_pdoc nat shows true false tl ex_partial) /\
  in_doc (DArray [3%nat] "f32" (Some "jax"%string)) (tree_pdoc nat shows true false tl ex_partial).
Proof.
  split.
  - intros [p H]. vm_compute in H. no_doc.
  - exists ["act"; "args"; "0"]%string. vm_compute. eapply DIn; [left; reflexivity|]. eapply DIn; [right; left; reflexivity|]. eapply DIn; [left; reflexivity|]. constructor.
Qed.
Print Assumptions C91_truncate_refuted.
(** A partial application shows the function, the positional and the keyword arguments. *)
Theorem C91_partial_fields : forall A (text_of : A -> string) short sa tl f a k, tl (OPartial f a k) = false ->
  tree_pdoc A text_of short sa tl (OPartial f a k) = DNode "Partial" [("func", wl_pdoc A text_of f); ("args", wl_pdoc A text_of a); ("keywords", wl_pdoc A text_of k)]%string.
Proof. intros A text_of short sa tl f a k H. unfold tree_pdoc. cbn [pdoc]. unfold custom at 1. rewrite H. destruct short; reflexivity. Qed.
Print Assumptions C91_partial_fields.
Theorem C91_short_refuted : ~ in_doc (DText "Array(7)") (tree_pdoc nat shows false false (fun _ => false) ex_partial) /\
  in_doc (DArray [3%nat] "f32" (Some "jax"%string)) (tree_pdoc nat shows false false (fun _ => false) ex_partial).
Proof.
  split.
  - intros [p H]. vm_compute in H. no_doc.
  - exists ["act"; "args"; "0"]%string. vm_compute. eapply DIn; [left; reflexivity|]. eapply DIn; [right; left; reflexivity|]. eapply DIn; [left; reflexivity|]. constructor.
Qed.
Print Assumptions C91_short_refuted.
(** Hence the same array prints differently inside and outside a Partial: without its weak type, and marked by its library. *)
Theorem C91_summary_differs : exists a : obj nat, in_doc (DArray [] "weak_i32" None) (tree_pdoc nat shows true false (fun _ => false) a) /\
  in_doc (DArray [] "i32" (Some "jax"%string)) (tree_pdoc nat shows true false (fun _ => false) (OPartial (OOther "function" "f") a (ONode "dict" [] []))).
Proof.
  exists (OArray true [] "i32" true 0%nat). split; [exists []; constructor|]. exists ["args"%string]. vm_compute. eapply DIn; [right; left; reflexivity|]. constructor.
Qed.
Print Assumptions C91_summary_differs.
Definition ex_linear : obj nat := ONode "Linear" [(true, "weight"); (true, "bias"); (false, "cache")]%string
  [OArray true [2; 3] "f32" false 7%nat; OOther "NoneType" "None"; OArray true [9] "f32" false 7%nat].
Example C91_ex : tree_pdoc nat shows true false (fun _ => false) ex_linear = DNode "Linear" [("weight", DArray [2; 3] "f32" None); ("bias", DText "None")]%string /\
  tree_pdoc nat shows false false (fun _ => false) ex_linear = DNode "Linear" [("weight", DText "Array(7)"); ("bias", DText "None")]%string.
Proof. split; reflexivity. Qed.
