(** C82: calling Python from a compiled function. *)
From Verif Require Import Filters_Proofs Closure_Proofs Callback_Model.

Section Props.
  Context {L S : Type}.
  Variables is_arr is_struct : L -> bool.
  Variable struct : L -> S.
  Variable seqb : S -> S -> bool.
  Variable leq : L -> L -> bool.
  Hypothesis seqb_spec : forall s s', seqb s s' = true <-> s = s'.
  Notation T := (tree L).
  Notation D := (L * L)%type.
  Notation pure_callback := (filter_pure_callback is_arr is_struct struct seqb leq).

  (** ** Vocabulary *)
  (** Pairs of a declared leaf and a leaf returned: what was declared, and what was returned. *)
  Definition declared (z : tree D) : T := lw (fun p => Leaf (fst p)) z.
  Definition returned (z : tree D) : T := lw (fun p => Leaf (snd p)) z.
  (** The value returned agrees with the declaration: an array of the declared shape and dtype, or an equal leaf. *)
  Definition agree (p : D) : Prop :=
    if is_struct (fst p) then is_arr (snd p) = true /\ struct (snd p) = struct (fst p)
    else is_arr (snd p) = false /\ leq (snd p) (fst p) = true.
  (** The array returned, elsewhere what was declared. *)
  Definition chosen (z : tree D) : T := lw (fun p => Leaf (if is_struct (fst p) then snd p else fst p)) z.
  (** Leaves that are not arrays (or declarations of them), the others becoming [None]. *)
  Definition without (g : L -> bool) (t : T) : T := lw (fun a => if g a then TNone else Leaf a) t.
  (** Whether [None] occurs. *)
  Fixpoint none_free {A} (t : tree A) : Prop :=
    match t with Leaf _ => True | TNone => False | Node _ cs => fold_right (fun c P => none_free c /\ P) True cs end.

  (** ** Lemmas *)
  Lemma conform_spec xs ss : conform struct seqb xs ss = true <-> map struct xs = map struct ss.
  Proof.
    revert ss. induction xs as [|x xs IH]; intros [|s ss]; simpl; split; intros H; try discriminate; auto.
    - apply andb_prop in H as [H1 H2]. apply seqb_spec in H1. apply IH in H2. congruence.
    - injection H as H1 H2. apply andb_true_intro. split; [apply seqb_spec|apply IH]; assumption.
  Qed.
  Notation dyn z := (lw (fun p : D => if is_struct (fst p) then Leaf (snd p) else TNone) z).
  (** A list of arrays put in place of the declarations. *)
  Lemma place spec : forall xs, length xs = length (List.filter is_struct (labels spec)) ->
    exists z : tree D, declared z = spec /\ (forall p, In p (labels z) -> is_struct (fst p) = false -> snd p = fst p) /\
      map snd (List.filter (fun p => is_struct (fst p)) (labels z)) = xs.
  Proof.
    unfold declared. induction spec as [a| |k cs IH] using tree_ind'; intros xs H.
    - simpl in H. destruct (is_struct a) eqn:E; simpl in H.
      + destruct xs as [|x [|? ?]]; try discriminate. exists (Leaf (a, x)). simpl. rewrite E. repeat split.
        intros p [<-|[]]. simpl. congruence.
      + destruct xs; try discriminate. exists (Leaf (a, a)). simpl. rewrite E. repeat split. intros p [<-|[]]. reflexivity.
    - destruct xs; try discriminate. exists TNone. repeat split. intros p [].
    - cbn [labels] in H.
      assert (G : exists zs : list (tree D), map (lw (fun p => Leaf (fst p))) zs = cs /\
        (forall p, In p (concat (map labels zs)) -> is_struct (fst p) = false -> snd p = fst p) /\
        map snd (List.filter (fun p => is_struct (fst p)) (concat (map labels zs))) = xs).
      { revert xs H. induction IH as [|c cs Hc _ IHcs]; intros xs H; simpl in H.
        - destruct xs; try discriminate. exists []. repeat split. intros p [].
        - rewrite filter_app, app_length in H. set (n := length (List.filter is_struct (labels c))) in *.
          destruct (Hc (firstn n xs)) as (z & E1 & E2 & E3). { rewrite firstn_length. fold n. lia. }
          destruct (IHcs (skipn n xs)) as (zs & F1 & F2 & F3). { rewrite skipn_length. lia. }
          exists (z :: zs). repeat split.
          + simpl. rewrite E1, F1. reflexivity.
          + intros p Hp. simpl in Hp. apply in_app_or in Hp as [Hp|Hp]; auto.
          + simpl. rewrite filter_app, map_app, E3, F3. apply firstn_skipn. }
      destruct G as (zs & <- & G2 & G3). exists (Node k zs). auto.
  Qed.
  Lemma labels_leaf {A B} (h : A -> B) (z : tree A) : labels (lw (fun p => Leaf (h p)) z) = map h (labels z).
  Proof. rewrite labels_lw. induction (labels z) as [|p l IH]; simpl in *; [reflexivity|]. rewrite IH. reflexivity. Qed.
  Lemma labels_dyn (z : tree D) : labels (dyn z) = map snd (List.filter (fun p => is_struct (fst p)) (labels z)).
  Proof.
    rewrite labels_lw. induction (labels z) as [|p l IH]; simpl; [reflexivity|]. destruct (is_struct (fst p)); simpl; rewrite IH; reflexivity.
  Qed.
  Lemma unflatten_dyn z xs : map snd (List.filter (fun p => is_struct (fst p)) (labels z)) = xs ->
    unflatten (treedef no_leaf (lw (fun a => if is_struct a then Leaf a else TNone) (declared z))) (map Leaf xs) = Ok (dyn z).
  Proof.
    intros <-. rewrite <- labels_dyn. apply unflatten_other. unfold declared. rewrite lw_lw. apply treedef_lw; auto.
    intros p _. cbn [lw]. destruct (is_struct (fst p)); reflexivity.
  Qed.
  Lemma combine_dyn z :
    eqx_combine no_leaf [dyn z; without is_struct (declared z)] = Ok (chosen z).
  Proof.
    unfold without, declared, chosen. rewrite lw_lw.
    match goal with |- eqx_combine _ [lw ?f z; lw ?g z] = _ => pose proof (combine_lw f [g] z) as E end.
    cbn [map] in E. rewrite E.
    - f_equal. apply lw_ext. intros p. cbn [lw]. destruct (is_struct (fst p)); reflexivity.
    - intros p. destruct (is_struct (fst p)); exact I.
  Qed.
  Lemma struct_length xs l : map struct xs = map struct l -> length xs = length l.
  Proof. intros H. rewrite <- (map_length struct xs), H. apply map_length. Qed.

  (** What the function does with the result of the callback. *)
  Definition finish (spec out : T) : res T :=
    if negb (tree_equal leq (without is_arr out) (without is_struct spec)) then Err ValueError
    else let xs := List.filter is_arr (labels out) in
         if conform struct seqb xs (List.filter is_struct (labels spec))
         then d <- unflatten (treedef no_leaf (lw (fun a => if is_struct a then Leaf a else TNone) spec)) (map Leaf xs) ;;
              eqx_combine no_leaf [d; without is_struct spec]
         else Err RuntimeError.
  Lemma run_callback callback args kwargs spec :
    pure_callback callback args kwargs spec = (out <- callback args kwargs ;; finish spec out).
  Proof.
    unfold filter_pure_callback, Callback_Model.pure_callback, wrapped. rewrite !partition_lw. cbn [bind].
    assert (C : eqx_combine no_leaf [lw (fun a => if is_arr a then Leaf a else TNone) (Node 0 [args; kwargs]);
                                     lw (fun a => if is_arr a then TNone else Leaf a) (Node 0 [args; kwargs])] = Ok (Node 0 [args; kwargs])).
    { match goal with |- eqx_combine _ [lw ?f ?z; lw ?g ?z] = _ => pose proof (combine_lw f [g] z) as E end.
      cbn [map] in E. rewrite E.
      - f_equal. rewrite <- lw_id. apply lw_ext. intros a. destruct (is_arr a); reflexivity.
      - intros a. destruct (is_arr a); exact I. }
    rewrite C. cbn [bind split2]. destruct (callback args kwargs) as [out|e]; [|reflexivity]. cbn [bind].
    rewrite partition_lw. cbn [bind]. unfold finish, without.
    destruct (negb _); [reflexivity|]. cbn [bind]. rewrite !flat_labels, !labels_filter.
    destruct (conform _ _ _ _); reflexivity.
  Qed.

  (** ** Theorems *)
  (** The callback is given the original arguments: two callbacks that agree on these give the same result; an exception is passed on. *)
  Theorem C82_arguments : forall callback callback' args kwargs spec,
    callback args kwargs = callback' args kwargs ->
    pure_callback callback args kwargs spec = pure_callback callback' args kwargs spec.
  Proof. intros. rewrite !run_callback, H. reflexivity. Qed.
  Theorem C82_exception : forall callback args kwargs spec e,
    callback args kwargs = Err e -> pure_callback callback args kwargs spec = Err e.
  Proof. intros. rewrite run_callback, H. reflexivity. Qed.
  (** If what is returned agrees with the declaration, leaf by leaf, then it is the result. *)
  Theorem C82_transparent : forall callback args kwargs z,
    callback args kwargs = Ok (returned z) -> (forall p, In p (labels z) -> agree p) ->
    pure_callback callback args kwargs (declared z) = Ok (chosen z).
  Proof.
    intros callback args kwargs z H Hz. rewrite run_callback, H. cbn [bind]. unfold finish.
    assert (E1 : tree_equal leq (without is_arr (returned z)) (without is_struct (declared z)) = true).
    { unfold without, returned, declared. rewrite !lw_lw. apply tree_equal_lw. intros p Hp. specialize (Hz p Hp).
      unfold agree in Hz. cbn [lw]. destruct (is_struct (fst p)), Hz as [-> Hz]; [exact I|exact Hz]. }
    rewrite E1. cbn [negb].
    assert (E2 : List.filter is_arr (labels (returned z)) = map snd (List.filter (fun p => is_struct (fst p)) (labels z))).
    { unfold returned. rewrite labels_leaf. clear H E1. induction (labels z) as [|p l IH]; [reflexivity|]. cbn [map List.filter].
      rewrite IH by (intros; apply Hz; right; assumption). specialize (Hz p (or_introl eq_refl)). unfold agree in Hz.
      destruct (is_struct (fst p)), Hz as [-> _]; reflexivity. }
    rewrite E2.
    match goal with |- (if ?c then _ else _) = _ => assert (E3 : c = true) end.
    { apply conform_spec. unfold declared. rewrite labels_leaf. clear H E1 E2. induction (labels z) as [|p l IH]; [reflexivity|].
      cbn [map List.filter]. specialize (IH (fun q Hq => Hz q (or_intror Hq))).
      specialize (Hz p (or_introl eq_refl)). unfold agree in Hz. destruct (is_struct (fst p)); [|exact IH].
      cbn [map]. destruct Hz as [_ ->]. rewrite IH. reflexivity. }
    rewrite E3. rewrite (unflatten_dyn z _ eq_refl). cbn [bind]. apply combine_dyn.
  Qed.
  (** Exactly when there is a result, and which: the leaves that are not arrays must sit in the same structure and be equal; the arrays returned
      have, left to right, the shapes and dtypes declared; the result has them, left to right, in the places of the declarations, and elsewhere
      what was declared. *)
  Theorem C82_exact : forall callback args kwargs spec r,
    pure_callback callback args kwargs spec = Ok r <->
    exists out, callback args kwargs = Ok out /\
      tree_equal leq (without is_arr out) (without is_struct spec) = true /\
      map struct (List.filter is_arr (labels out)) = map struct (List.filter is_struct (labels spec)) /\
      exists z, declared z = spec /\ returned z = r /\
        (forall p, In p (labels z) -> is_struct (fst p) = false -> snd p = fst p) /\
        map snd (List.filter (fun p => is_struct (fst p)) (labels z)) = List.filter is_arr (labels out).
  Proof.
    intros callback args kwargs spec r. rewrite run_callback.
    assert (CH : forall z, (forall p, In p (labels z) -> is_struct (fst p) = false -> snd p = fst p) -> chosen z = returned z).
    { intros z Hz. apply lw_ext_in. intros p Hp. destruct (is_struct (fst p)) eqn:E; [reflexivity|]. rewrite (Hz p Hp E). reflexivity. }
    split.
    - intros H. apply bind_ok in H as (out & Ho & H). exists out. split; [exact Ho|]. unfold finish in H.
      destruct (tree_equal _ _ _); [|discriminate H]. cbn [negb] in H. split; [reflexivity|].
      destruct (conform _ _ _ _) eqn:E; [|discriminate H]. apply conform_spec in E. split; [exact E|].
      destruct (place spec _ (struct_length _ _ E)) as (z & <- & Hz & Hx). exists z. split; [reflexivity|].
      rewrite (unflatten_dyn z _ Hx) in H. cbn [bind] in H. rewrite combine_dyn in H. injection H as <-. rewrite (CH z Hz). auto.
    - intros (out & -> & E1 & E2 & z & <- & <- & Hz & Hx). cbn [bind]. unfold finish. rewrite E1. cbn [negb].
      apply conform_spec in E2. rewrite E2. rewrite (unflatten_dyn z _ Hx). cbn [bind]. rewrite combine_dyn, (CH z Hz). reflexivity.
  Qed.
  (** Otherwise: an array where none is declared, or the other way round, and different leaves or structures raise ValueError before
      shapes and dtypes are compared. *)
  Theorem C82_static_mismatch : forall callback args kwargs spec out,
    callback args kwargs = Ok out -> tree_equal leq (without is_arr out) (without is_struct spec) = false ->
    pure_callback callback args kwargs spec = Err ValueError.
  Proof. intros callback args kwargs spec out H E. rewrite run_callback, H. cbn [bind]. unfold finish. rewrite E. reflexivity. Qed.
  Theorem C82_shape_mismatch : forall callback args kwargs spec out,
    callback args kwargs = Ok out -> tree_equal leq (without is_arr out) (without is_struct spec) = true ->
    map struct (List.filter is_arr (labels out)) <> map struct (List.filter is_struct (labels spec)) ->
    pure_callback callback args kwargs spec = Err RuntimeError.
  Proof.
    intros callback args kwargs spec out H E N. rewrite run_callback, H. cbn [bind]. unfold finish. rewrite E. cbn [negb].
    destruct (conform _ _ _ _) eqn:C; [|reflexivity]. apply conform_spec in C. contradiction.
  Qed.

  (** Without [None] in the declaration, every array is returned in its own place. *)
  Fixpoint nnone {A} (t : tree A) : nat :=
    match t with Leaf _ => 0 | TNone => 1 | Node _ cs => list_sum (map nnone cs) end.
  Lemma nnone_free {A} (t : tree A) : none_free t <-> nnone t = 0.
  Proof.
    induction t as [a| |k cs IH] using tree_ind'; simpl; [tauto|split; [tauto|discriminate]|].
    induction IH as [|c cs Hc _ IHcs]; simpl; [tauto|]. rewrite Hc, IHcs. lia.
  Qed.
  Lemma nnone_treedef {A B} (t : tree A) (u : tree B) : treedef no_leaf t = treedef no_leaf u -> nnone t = nnone u.
  Proof.
    revert u. induction t as [a| |k cs IH] using tree_ind'; intros [b| |k' ds]; simpl; intros H; try discriminate; auto.
    injection H as _ H. revert ds H. induction IH as [|c cs Hc _ IHcs]; intros [|d ds] H; simpl in *; try discriminate; auto.
    injection H as H1 H2. rewrite (Hc d H1), (IHcs ds H2). reflexivity.
  Qed.
  Lemma nnone_without g t : nnone (without g t) = nnone t + length (List.filter g (labels t)).
  Proof.
    unfold without. induction t as [a| |k cs IH] using tree_ind'; simpl; auto.
    - destruct (g a); reflexivity.
    - induction IH as [|c cs Hc _ IHcs]; simpl; [reflexivity|]. rewrite filter_app, app_length. rewrite Hc, IHcs. lia.
  Qed.
  Lemma zip_without g h (t u : T) : none_free t -> none_free u ->
    treedef no_leaf (without g t) = treedef no_leaf (without h u) ->
    exists z : tree D, returned z = t /\ declared z = u.
  Proof.
    unfold without, returned, declared. revert u. induction t as [a| |k cs IH] using tree_ind'; intros u Ht Hu H; [|contradiction|].
    - destruct u as [b| |k ds]; [exists (Leaf (b, a)); auto|contradiction|]. exfalso. simpl in H. destruct (g a); discriminate.
    - destruct u as [b| |k' ds]; [exfalso; simpl in H; destruct (h b); discriminate|contradiction|].
      cbn [lw treedef no_leaf] in H. injection H as -> H. rewrite !map_map in H. simpl in Ht, Hu.
      assert (G : exists zs, map (lw (fun p : D => Leaf (snd p))) zs = cs /\ map (lw (fun p : D => Leaf (fst p))) zs = ds).
      { revert ds H Hu. induction IH as [|c cs Hc _ IHcs]; intros [|d ds] H Hu; simpl in H; try discriminate.
        - exists []. auto.
        - injection H as H1 H2. simpl in Ht, Hu. destruct (Hc d) as (z & <- & <-); try tauto.
          destruct (IHcs ltac:(tauto) ds) as (zs & <- & <-); try tauto. exists (z :: zs). auto. }
      destruct G as (zs & <- & <-). exists (Node k' zs). auto.
  Qed.
  Theorem C82_faithful : forall callback args kwargs spec r,
    none_free spec -> pure_callback callback args kwargs spec = Ok r ->
    exists z, declared z = spec /\ callback args kwargs = Ok (returned z) /\ r = chosen z /\
              forall p, In p (labels z) -> agree p.
  Proof.
    intros callback args kwargs spec r NF H. pose proof H as H'. rewrite C82_exact in H. destruct H as (out & Ho & E1 & E2 & _).
    assert (D1 : treedef no_leaf (without is_arr out) = treedef no_leaf (without is_struct spec)).
    { unfold tree_equal in E1. apply andb_prop in E1 as [E1 _]. apply tdef_eqb_spec. exact E1. }
    pose proof (nnone_treedef _ _ D1) as N. rewrite !nnone_without, (struct_length _ _ E2) in N.
    assert (NO : none_free out) by (apply nnone_free; apply nnone_free in NF; lia).
    destruct (zip_without _ _ _ _ NO NF D1) as (z & <- & <-).
    assert (AG : forall p, In p (labels z) -> agree p).
    { unfold without, returned, declared in E1. rewrite !lw_lw in E1. cbn [lw] in E1.
      assert (SM : forall (c : bool) (x : L), small (if c then TNone else Leaf x)) by (intros [|] x; exact I).
      pose proof (tree_equal_lw_inv leq _ _ z (fun p => SM (is_arr (snd p)) (snd p)) (fun p => SM (is_struct (fst p)) (fst p)) E1) as Q.
      assert (K : forall p, In p (labels z) -> is_arr (snd p) = is_struct (fst p)).
      { intros p Hp. specialize (Q p Hp). cbn beta in Q. destruct (is_arr (snd p)), (is_struct (fst p)); reflexivity || contradiction. }
      unfold returned, declared in E2. rewrite !labels_leaf in E2.
      assert (V : forall p, In p (labels z) -> is_struct (fst p) = true -> struct (snd p) = struct (fst p)).
      { clear - E2 K. revert E2 K. induction (labels z) as [|p l IH]; intros E2 K q Hq; [contradiction|].
        cbn [map List.filter] in E2. rewrite (K p (or_introl eq_refl)) in E2.
        assert (IH' := fun E => IH E (fun q Hq => K q (or_intror Hq))).
        destruct (is_struct (fst p)) eqn:Ep.
        - cbn [map] in E2. injection E2 as E2a E2b. destruct Hq as [<-|Hq]; [intros _; exact E2a|apply IH'; assumption].
        - destruct Hq as [<-|Hq]; [congruence|apply IH'; assumption]. }
      intros p Hp. unfold agree. specialize (Q p Hp). specialize (V p Hp). specialize (K p Hp). cbn beta in Q.
      destruct (is_arr (snd p)), (is_struct (fst p)); try discriminate; auto. }
    exists z. split; [reflexivity|]. split; [exact Ho|]. split; [|exact AG].
    rewrite (C82_transparent callback args kwargs z Ho AG) in H'. congruence.
  Qed.
End Props.

(** With [None] in the declaration it need not be: the leaves are arrays [inl n] of shape [n mod 10], and shapes [inr n]. The callback returns
    [(x, None)] where [(None, struct)] was declared; the result is [(None, x)]. *)
Definition c82_leaf := (nat + nat)%type.
Definition c82_arr (a : c82_leaf) : bool := match a with inl _ => true | inr _ => false end.
Definition c82_str (a : c82_leaf) : bool := match a with inl _ => true | inr n => n <? 10 end.
Definition c82_shape (a : c82_leaf) : nat := match a with inl n => n mod 10 | inr n => n end.
Definition c82_eq (a b : c82_leaf) : bool := match a, b with inl n, inl m => n =? m | inr n, inr m => n =? m | _, _ => false end.
Notation c82_run f args spec := (filter_pure_callback c82_arr c82_str c82_shape Nat.eqb c82_eq f args (Node 1 []) spec).
Theorem C82_places_refuted :
  ~ (forall f args spec r, c82_run f args spec = Ok r -> f args (Node 1 []) = Ok r).
Proof.
  intros H. specialize (H (fun _ _ => Ok (Node 0 [Leaf (inl 23); TNone])) (Node 0 []) (Node 0 [TNone; Leaf (inr 3)])
                          (Node 0 [TNone; Leaf (inl 23)]) eq_refl). discriminate H.
Qed.
(** A callback that adds ten to its first array and passes the other argument on. *)
Definition c82_f (args _ : tree c82_leaf) : res (tree c82_leaf) :=
  match args with Node _ [Leaf (inl n); s] => Ok (Node 0 [s; Leaf (inl (n + 10))]) | _ => Err TypeError end.
Example C82_ex : c82_run c82_f (Node 0 [Leaf (inl 3); Leaf (inr 77)]) (Node 0 [Leaf (inr 77); Leaf (inr 3)])
                 = Ok (Node 0 [Leaf (inr 77); Leaf (inl 13)]).
Proof. reflexivity. Qed.
(** Another leaf than declared, a leaf where an array is declared, another shape, an exception. *)
Example C82_ex_errors :
  c82_run c82_f (Node 0 [Leaf (inl 3); Leaf (inr 76)]) (Node 0 [Leaf (inr 77); Leaf (inr 3)]) = Err ValueError /\
  c82_run c82_f (Node 0 [Leaf (inl 3); Leaf (inr 77)]) (Node 0 [Leaf (inr 3); Leaf (inr 3)]) = Err ValueError /\
  c82_run c82_f (Node 0 [Leaf (inl 3); Leaf (inr 77)]) (Node 0 [Leaf (inr 77); Leaf (inr 4)]) = Err RuntimeError /\
  c82_run c82_f (Node 0 [Leaf (inr 77)]) (Node 0 [Leaf (inr 77); Leaf (inr 4)]) = Err TypeError.
Proof. repeat split. Qed.
(** A shape returned by the callback is a leaf like any other, but can never match: in the declaration it stands for an array. *)
Example C82_ex_shape : c82_run (fun _ _ => Ok (Leaf (inr 3))) (Node 0 []) (Leaf (inr 3)) = Err ValueError.
Proof. reflexivity. Qed.

Print Assumptions C82_arguments.
Print Assumptions C82_exception.
Print Assumptions C82_transparent.
Print Assumptions C82_exact.
Print Assumptions C82_static_mismatch.
Print Assumptions C82_shape_mismatch.
Print Assumptions C82_faithful.
Print Assumptions C82_places_refuted.
