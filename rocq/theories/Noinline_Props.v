(** C44: the registry behind [noinline]. *)
From Verif Require Import Tree_Facts Filters_Props Noinline_Model.

Section Props.
  Context {L : Type}.
  Variable is_arr : tree L -> bool.
  Variable heq : static_fn L -> static_fn L -> bool.
  Variable hashable : static_fn L -> bool.
  Variable apply : tree L -> tree L -> tree L -> res (tree L).
  Notation noinline := (noinline is_arr heq hashable).
  Notation after := (after is_arr heq hashable).
  Notation stat fn := (snd (hashable_partition fn is_arr)).

  Lemma after_app h1 h2 : after (h1 ++ h2) = fold_left (step is_arr heq hashable) h2 (after h1).
  Proof. apply fold_left_app. Qed.

  Lemma step_extends reg fn : exists ks, index_to_fn (step is_arr heq hashable reg fn) = index_to_fn reg ++ ks.
  Proof.
    unfold step, Noinline_Model.noinline. destruct (hashable_partition fn is_arr) as [dyn sta].
    destruct (hashable sta); simpl; [|exists []; rewrite app_nil_r; reflexivity].
    destruct (dict_get heq _ sta); simpl; [exists []; rewrite app_nil_r; reflexivity|].
    eexists; reflexivity.
  Qed.

  (** The table of functions only grows: what an index resolves to never changes. *)
  Theorem C44_append_only : forall h h' i s,
    nth_error (index_to_fn (after h)) i = Some s ->
    nth_error (index_to_fn (after (h ++ h'))) i = Some s.
  Proof.
    intros h h'. rewrite after_app. generalize (after h) as reg.
    induction h' as [|fn h' IH]; intros reg i s H; simpl; [exact H|].
    apply IH. destruct (step_extends reg fn) as [ks ->].
    rewrite nth_error_app1; [exact H|]. apply nth_error_Some. congruence.
  Qed.

  Definition wf (reg : registry L) : Prop :=
    fn_to_index reg = List.combine (index_to_fn reg) (seq 0 (length (index_to_fn reg))).

  Lemma combine_snoc {A} (l : list A) a :
    List.combine (l ++ [a]) (seq 0 (length (l ++ [a]))) = List.combine l (seq 0 (length l)) ++ [(a, length l)].
  Proof.
    assert (H : forall n, List.combine (l ++ [a]) (seq n (length (l ++ [a])))
                          = List.combine l (seq n (length l)) ++ [(a, n + length l)]).
    { induction l as [|b l IH]; intros n; simpl; [rewrite Nat.add_0_r; reflexivity|].
      rewrite IH, Nat.add_succ_r. reflexivity. }
    apply H.
  Qed.

  Lemma wf_after h : wf (after h).
  Proof.
    induction h as [|fn h IH] using rev_ind; [reflexivity|]. rewrite after_app. simpl.
    unfold step, Noinline_Model.noinline. destruct (hashable_partition fn is_arr) as [dyn sta].
    destruct (hashable sta); simpl; [|exact IH].
    destruct (dict_get heq _ sta); simpl; [exact IH|]. unfold wf in *. cbn [fn_to_index index_to_fn].
    rewrite combine_snoc, IH at 1. reflexivity.
  Qed.

  Lemma find_combine (l : list (static_fn L)) k : forall n,
    match find (fun e : static_fn L * nat => heq (fst e) k) (List.combine l (seq n (length l))) with
    | Some (s, i) => n <= i /\ nth_error l (i - n) = Some s /\ heq s k = true /\
        forall j s', j < i - n -> nth_error l j = Some s' -> heq s' k = false
    | None => forall s', In s' l -> heq s' k = false
    end.
  Proof.
    induction l as [|a l IH]; intros n; simpl; [tauto|].
    destruct (heq a k) eqn:E.
    - rewrite Nat.sub_diag. do 2 (split; [auto|]). split; [exact E|]. intros; lia.
    - specialize (IH (S n)). destruct (find _ _) as [[s i]|].
      + destruct IH as (H1 & H2 & H3 & H4). replace (i - n) with (S (i - S n)) by lia.
        split; [lia|]. split; [exact H2|]. split; [exact H3|].
        intros [|j] s' Hj Hs; simpl in Hs; [congruence|]. apply (H4 j); [lia|exact Hs].
      + intros s' [<-|H]; auto.
  Qed.

  (** Registering succeeds exactly for hashable static parts; the index returned resolves, now
      and after any later registrations, to the first registered static part equal to that of
      the function. *)
  Theorem C44_register : forall h fn,
    (hashable (stat fn) = false -> fst (noinline (after h) fn) = Err TypeError /\ after (h ++ [fn]) = after h) /\
    (hashable (stat fn) = true -> (forall s, heq s s = true) ->
      exists i s,
        fst (noinline (after h) fn) = Ok (mk_wrapper i (fst (hashable_partition fn is_arr))) /\
        (forall h', nth_error (index_to_fn (after ((h ++ [fn]) ++ h'))) i = Some s) /\
        heq s (stat fn) = true /\
        (forall j s', j < i -> nth_error (index_to_fn (after h)) j = Some s' -> heq s' (stat fn) = false)).
  Proof.
    intros h fn. pose proof (wf_after h) as W.
    assert (E : after (h ++ [fn]) = step is_arr heq hashable (after h) fn) by (rewrite after_app; reflexivity).
    split.
    - intros Hh. rewrite E. unfold step, Noinline_Model.noinline.
      destruct (hashable_partition fn is_arr) as [dyn sta]. simpl in *. rewrite Hh. split; reflexivity.
    - intros Hh Hrefl.
      assert (HX : exists i s,
        fst (noinline (after h) fn) = Ok (mk_wrapper i (fst (hashable_partition fn is_arr))) /\
        nth_error (index_to_fn (after (h ++ [fn]))) i = Some s /\ heq s (stat fn) = true /\
        (forall j s', j < i -> nth_error (index_to_fn (after h)) j = Some s' -> heq s' (stat fn) = false)).
      { rewrite E. unfold step, Noinline_Model.noinline.
        destruct (hashable_partition fn is_arr) as [dyn sta]. simpl in *. rewrite Hh. cbn [negb].
        unfold dict_get. rewrite W. pose proof (find_combine (index_to_fn (after h)) sta 0) as F.
        destruct (find _ _) as [[s i]|]; cbn [fst snd].
        - destruct F as (_ & F2 & F3 & F4). rewrite Nat.sub_0_r in *. exists i, s.
          do 3 (split; [auto|]). exact F4.
        - exists (length (index_to_fn (after h))), sta. split; [reflexivity|]. cbn [index_to_fn].
          rewrite nth_error_app2, Nat.sub_diag by lia. split; [reflexivity|]. split; [apply Hrefl|].
          intros j s' _ Hs. apply F. eapply nth_error_In; exact Hs. }
      destruct HX as (i & s & H1 & H2 & H3 & H4). exists i, s. split; [exact H1|].
      split; [|split; [exact H3|exact H4]]. intros h'. apply C44_append_only. exact H2.
  Qed.

  (** Two functions get the same index exactly when their static parts are equal, whatever was
      registered before and in between. *)
  Theorem C44_index : forall h fn h' fn' w w',
    (forall s, heq s s = true) -> (forall s t, heq s t = true -> heq t s = true) ->
    (forall s t u, heq s t = true -> heq t u = true -> heq s u = true) ->
    fst (noinline (after h) fn) = Ok w ->
    fst (noinline (after ((h ++ [fn]) ++ h')) fn') = Ok w' ->
    (dynamic_index w = dynamic_index w' <-> heq (stat fn) (stat fn') = true).
  Proof.
    intros h fn h' fn' w w' Hr Hs Ht E1 E2.
    destruct (C44_register h fn) as [N1 P1]. destruct (C44_register ((h ++ [fn]) ++ h') fn') as [N2 P2].
    destruct (hashable (stat fn)) eqn:H1; [|destruct (N1 eq_refl); congruence].
    destruct (hashable (stat fn')) eqn:H2; [|destruct (N2 eq_refl); congruence].
    destruct (P1 eq_refl Hr) as (i & s & A1 & A2 & A3 & A4). destruct (P2 eq_refl Hr) as (j & t & B1 & B2 & B3 & B4).
    rewrite E1 in A1; injection A1 as ->. rewrite E2 in B1; injection B1 as ->. cbn [dynamic_index].
    specialize (B2 []). rewrite app_nil_r in B2.
    split.
    - intros <-. specialize (A2 (h' ++ [fn'])). rewrite app_assoc in A2. rewrite A2 in B2. injection B2 as <-.
      eapply Ht; [apply Hs; exact A3|exact B3].
    - intros Heq. destruct (lt_eq_lt_dec i j) as [[Hlt|He]|Hlt]; [|exact He|].
      + exfalso. pose proof (B4 i s Hlt (A2 h')) as F. rewrite (Ht _ _ _ A3 Heq) in F. discriminate.
      + exfalso.
        (* the entry found later is also found in the table after the first registration *)
        assert (Hin : nth_error (index_to_fn (after h)) j = Some t).
        { assert (Hlen : i <= length (index_to_fn (after h))).
          { clear -E1. revert E1. unfold Noinline_Model.noinline. pose proof (wf_after h) as W.
            destruct (hashable_partition fn is_arr) as [dyn sta]. destruct (hashable sta); simpl; [|discriminate].
            unfold dict_get. rewrite W. pose proof (find_combine (index_to_fn (after h)) sta 0) as F.
            destruct (find _ _) as [[s0 i0]|]; simpl; intros E; injection E as <-; [|auto].
            destruct F as (_ & F2 & _). rewrite Nat.sub_0_r in F2.
            assert (i0 < length (index_to_fn (after h))) by (apply nth_error_Some; congruence). lia. }
          destruct (nth_error (index_to_fn (after h)) j) as [u|] eqn:Eu; [|apply nth_error_None in Eu; lia].
          pose proof (C44_append_only h (([fn] ++ h') ++ [fn']) j u Eu) as F.
          rewrite !app_assoc in F. rewrite B2 in F. congruence. }
        pose proof (A4 j t Hlt Hin) as F.
        rewrite (Ht _ _ _ B3 (Hs _ _ Heq)) in F. discriminate.
  Qed.

  (** Calling the wrapper runs the function with its own arrays and a static part that was
      registered first and is equal to its own; when equality means being the same, it runs
      the function itself, however many functions are registered in between. *)
  Theorem C44_call : forall h fn h' w args kwargs,
    (forall s, heq s s = true) ->
    fst (noinline (after h) fn) = Ok w ->
    exists s, heq s (stat fn) = true /\
      call apply (after ((h ++ [fn]) ++ h')) w args kwargs
      = (f <- hashable_combine (fst (hashable_partition fn is_arr)) s ;; apply f args kwargs).
  Proof.
    intros h fn h' w args kwargs Hr E. destruct (C44_register h fn) as [N1 P1].
    destruct (hashable (stat fn)) eqn:H1; [|destruct (N1 eq_refl); congruence].
    destruct (P1 eq_refl Hr) as (i & s & A1 & A2 & A3 & _). exists s. split; [exact A3|].
    rewrite E in A1. injection A1 as ->. unfold call, noinline_impl. cbn [dynamic_index]. rewrite A2. reflexivity.
  Qed.

  Theorem C44_call_exact : forall h fn h' w args kwargs,
    (forall s t, heq s t = true <-> s = t) ->
    fst (noinline (after h) fn) = Ok w ->
    call apply (after ((h ++ [fn]) ++ h')) w args kwargs = apply fn args kwargs.
  Proof.
    intros h fn h' w args kwargs He E.
    destruct (C44_call h fn h' w args kwargs (fun s => proj2 (He s s) eq_refl) E) as (s & Hs & ->).
    apply He in Hs. subst s. rewrite C05_pack_unpack_identity. reflexivity.
  Qed.

  (** A transformed call (JVP, transposition, batching append to the list of transformations)
      is the transformation applied to the function that the untransformed call runs. *)
  Theorem C44_transformed : forall (X Y : Type) reg i
      (t : fun_t (list (tree L) * tree L * tree L) -> fun_t (L:=L) X) (u : fun_t X -> fun_t Y),
    i < length (index_to_fn reg) ->
    (forall f g y, (forall x, f x = g x) -> u f y = u g y) ->
    forall y, noinline_impl apply reg i (fun f => u (t f)) y
              = u (fun x => noinline_impl apply reg i t x) y.
  Proof.
    intros X Y reg i t u Hi Hu y. unfold noinline_impl.
    destruct (nth_error (index_to_fn reg) i) as [s|] eqn:E; [|apply nth_error_None in E; lia].
    apply Hu. reflexivity.
  Qed.

  (** Batching: an index broadcast by [vmap] is the index; indices of different functions are
      conflated without an error (the silent error noted at lines 262-265). *)
  Theorem C44_batch_broadcast : forall i n, batch_index (repeat i (S n)) = Ok i.
  Proof. reflexivity. Qed.
  Theorem C44_batch_conflates_refuted : exists i j, i <> j /\ batch_index [i; j] = Ok i.
  Proof. exists 0, 1. split; [discriminate|reflexivity]. Qed.
End Props.
Print Assumptions C44_append_only.
Print Assumptions C44_register.
Print Assumptions C44_index.
Print Assumptions C44_call.
Print Assumptions C44_call_exact.
Print Assumptions C44_transformed.
Print Assumptions C44_batch_broadcast.
Print Assumptions C44_batch_conflates_refuted.

(** With Python's equality a function can run with another function's static part: leaves 1
    (the integer) and 101 (the boolean [True], equal to 1) are identified. *)
Definition ex_norm (t : tree nat) : tree nat := match t with Leaf 101 => Leaf 1 | t => t end.
Definition ex_leaf_eqb (s t : tree nat) : bool :=
  match ex_norm s, ex_norm t with Leaf a, Leaf b => a =? b | TNone, TNone => true | _, _ => false end.
Definition ex_heq (s t : static_fn nat) : bool :=
  (length (fst s) =? length (fst t)) &&
  forallb (fun p => ex_leaf_eqb (fst p) (snd p)) (List.combine (fst s) (fst t)).
Definition ex_is_arr (t : tree nat) : bool := match t with Leaf a => (500 <=? a) | _ => false end.
Definition ex_apply (fn args kwargs : tree nat) : res (tree nat) := Ok fn.
Definition ex_f : tree nat := Node 0 [Leaf 1; Leaf 500].
Definition ex_g : tree nat := Node 0 [Leaf 101; Leaf 501].
Definition ex_reg := after ex_is_arr ex_heq (fun _ => true).

Theorem C44_equal_static_refuted :
  exists h fn w args, fst (noinline ex_is_arr ex_heq (fun _ => true) (ex_reg h) fn) = Ok w /\
    call ex_apply (ex_reg (h ++ [fn])) w args TNone <> ex_apply fn args TNone.
Proof.
  exists [ex_f], ex_g. eexists. exists TNone. split; [reflexivity|]. vm_compute. discriminate.
Qed.
Print Assumptions C44_equal_static_refuted.

Example C44_ex : exists w w',
  fst (noinline ex_is_arr ex_heq (fun _ => true) (ex_reg []) ex_f) = Ok w /\
  fst (noinline ex_is_arr ex_heq (fun _ => true) (ex_reg [ex_f]) (Node 0 [Leaf 2; Leaf 500])) = Ok w' /\
  dynamic_index w = 0 /\ dynamic_index w' = 1 /\
  call ex_apply (ex_reg [ex_f; Node 0 [Leaf 2; Leaf 500]]) w TNone TNone = Ok ex_f.
Proof. do 2 eexists. do 4 (split; [reflexivity|]). reflexivity. Qed.
