(** C85, C86: backward_nan and announce_transform. *)
From Verif Require Import Filters_Proofs Leafwise Closure_Proofs Custom_Model Custom_Props Debug_Model.
From Coq Require Import Lia.
Local Open Scope nat_scope.
Local Open Scope list_scope.

Section BackwardNanProps.
  Context {L : Type}.
  Variables is_arr inexact jax_type array_like truthy has_nan : L -> bool.
  Notation T := (tree L).
  Notation D := (L * option L)%type.
  Notation PP := (L * bool)%type.
  Notation object := (bn_object is_arr inexact array_like truthy has_nan).
  (** Inexact arrays are arrays, arrays are array-like, and have an abstract value. *)
  Hypothesis inexact_arr : forall a, inexact a = true -> is_arr a = true.
  Hypothesis inexact_type : forall a, inexact a = true -> jax_type a = true.

  Lemma object_given : object = given [OFwd (bn_fwd is_arr inexact); OBwd (bn_bwd array_like truthy has_nan)].
  Proof. reflexivity. Qed.
  Lemma inner_call x args kwargs :
    custom_vjp_call is_arr inexact {| o_fwd := None; o_bwd := None; o_wrapped := true |} bn_fn x args kwargs = Ok x.
  Proof.
    transitivity (custom_vjp_call is_arr inexact object bn_fn x args kwargs); [reflexivity|].
    rewrite object_given. apply C66_call. reflexivity.
  Qed.

  (** C85. Not differentiated, the identity. *)
  Theorem C85_value : forall x name terminate : T, backward_nan is_arr inexact array_like truthy has_nan x name terminate = Ok x.
  Proof.
    intros x name terminate. unfold backward_nan. rewrite object_given. rewrite C66_call; reflexivity.
  Qed.

  (** The cotangents that are there. *)
  Definition cotangents (w : tree D) : list L := flat_map (fun p => if inexact (fst p) then match snd p with Some c => [c] | None => [] end else []) (labels w).
  Lemma filter_call (g : L -> bool) (x : T) :
    eqx_filter no_leaf TNone false x (Leaf (SCall (on_leaf g))) = Ok (lw (fun a => if g a then Leaf a else TNone) x).
  Proof.
    rewrite filter_fused. cbn [tmap2 no_leaf sel_leaf]. f_equal. rewrite tmap_lw. apply lw_ext. intros a. cbn [on_leaf].
    destruct (g a); reflexivity.
  Qed.
  Lemma filtered (w : tree D) : Forall (fun c => array_like c = true) (cotangents w) ->
    map (fun s => match s with Leaf a => has_nan a | _ => false end)
      (leaves no_leaf (lw (fun a => if array_like a then Leaf a else TNone) (seen inexact w))) = map has_nan (cotangents w).
  Proof.
    intros H. rewrite leaves_labels, map_map, labels_lw. unfold seen. rewrite labels_lw.
    replace (flat_map (fun a : D => labels (if inexact (fst a) then opt (snd a) else TNone)) (labels w)) with (cotangents w).
    - f_equal. induction H as [|c cs Hc _ IH]; [reflexivity|]. cbn [flat_map]. rewrite Hc, IH. reflexivity.
    - unfold cotangents. apply flat_map_ext. intros [a [c|]]; cbn [fst snd]; destruct (inexact a); reflexivity.
  Qed.
  (** Python's truth value of [terminate]. *)
  Definition truth (t : T) : bool := match t with Leaf a => truthy a | TNone => false | Node _ [] => false | Node _ _ => true end.

  (** C85. Differentiated, the output is [x]; a gradient comes back as it came in, unless [terminate] is set and there is a NaN in it, or
      there is no gradient at all. *)
  Theorem C85_gradient : forall x name terminate : tree PP, jax_flags inexact x -> unperturbed name -> unperturbed terminate ->
    exists pull, backward_nan_vjp is_arr inexact jax_type array_like truthy has_nan x name terminate = Ok (vals x, pull) /\
    forall w : tree D, vals w = vals x -> Forall (fun c => array_like c = true) (cotangents w) ->
      pull (passed inexact w) =
        if negb (truth (vals terminate)) then Ok (passed inexact w)
        else if Nat.eqb (List.length (cotangents w)) 0 then Err ValueError
        else if existsb has_nan (cotangents w) then Err RuntimeError
        else Ok (passed inexact w).
  Proof.
    intros x name terminate Hx Hn Ht. unfold backward_nan_vjp. rewrite object_given.
    assert (Hargs : unperturbed (Node 0 [name; terminate])).
    { intros p Hp. cbn [labels map List.concat] in Hp. rewrite app_nil_r in Hp. apply in_app_or in Hp as [Hp|Hp]; auto. }
    assert (Hkw : unperturbed (Node 0 [] : tree PP)) by (intros p []).
    destruct (C66_rules is_arr inexact jax_type inexact_arr
      [OFwd (bn_fwd is_arr inexact); OBwd (bn_bwd array_like truthy has_nan)] _ _ x (Node 0 [name; terminate]) (Node 0 []) eq_refl eq_refl Hx Hargs Hkw inexact_type)
      as [_ R].
    destruct (R (vals x) TNone) as (pull & E & P); [unfold bn_fwd; rewrite inner_call; reflexivity|].
    exists pull. split; [exact E|]. intros w Hw Hc. destruct (P w Hw) as (P1 & _ & P3 & _). clear P R E.
    set (y := lw (fun p : D => Leaf (fst p, if inexact (fst p) then snd p else None)) w).
    assert (Y1 : vals y = vals x). { rewrite <- Hw. unfold y, vals. rewrite lw_lw. apply lw_ext. reflexivity. }
    assert (Y2 : lw (fun p : D => opt (snd p)) y = seen inexact w).
    { unfold y, seen. rewrite lw_lw. apply lw_ext. intros [a c]. cbn. destruct (inexact a); reflexivity. }
    assert (Y3 : passed inexact y = passed inexact w).
    { unfold y, passed. rewrite lw_lw. apply lw_ext. intros [a c]. cbn. destruct (inexact a); reflexivity. }
    assert (Y4 : forall a t, In (a, Some t) (labels y) -> inexact a = true).
    { intros a t H. unfold y in H. rewrite labels_lw in H. apply in_flat_map in H as ([b c] & _ & H). cbn in H. destruct H as [H|[]].
      injection H as -> H. destruct (inexact a); [reflexivity|discriminate]. }
    specialize (P3 y Y1). rewrite Y2, Y3 in P3.
    assert (B : bn_bwd array_like truthy has_nan TNone (seen inexact w) (flags x) (vals x) (vals (Node 0 [name; terminate])) (vals (Node 0 [] : tree PP)) =
      if negb (truth (vals terminate)) then Ok (seen inexact w)
        else if Nat.eqb (List.length (cotangents w)) 0 then Err ValueError
        else if existsb has_nan (cotangents w) then Err RuntimeError
        else Ok (seen inexact w)).
    { unfold bn_bwd. change (vals (Node 0 [name; terminate])) with (Node 0 [vals name; vals terminate]). cbn beta iota.
      match goal with |- (if ?c then _ else _) = _ => assert (Ec : c = truth (vals terminate)) end.
      { destruct (vals terminate) as [a| |k [|c cs]]; reflexivity. }
      rewrite Ec. destruct (truth (vals terminate)); [|reflexivity]. cbn [negb]. rewrite filter_call. cbn [bind]. rewrite (filtered w Hc).
      destruct (cotangents w) as [|c cs]; [reflexivity|]. cbn [List.length Nat.eqb map].
      assert (Em : existsb (fun b => b) (has_nan c :: map has_nan cs) = existsb has_nan (c :: cs)).
      { cbn [existsb]. f_equal. clear. induction cs as [|c cs IH]; [reflexivity|]. cbn [map existsb]. rewrite IH. reflexivity. }
      rewrite Em. reflexivity. }
    destruct (negb _).
    - apply P3; [exact B|exact Y4].
    - destruct (Nat.eqb _ 0); [apply P1; exact B|]. destruct (existsb _ _); [apply P1; exact B|]. apply P3; [exact B|exact Y4].
  Qed.
End BackwardNanProps.
Print Assumptions C85_value.
Print Assumptions C85_gradient.

(** C85 does not say that the gradient always comes back: without any cotangent there is nothing to stack. *)
Theorem C85_no_cotangent_refuted :
  exists x : tree (bool * bool), exists pull,
    backward_nan_vjp (fun _ => true) (fun _ => true) (fun _ => true) (fun _ => true) (fun b => b) (fun b => b) x TNone (Leaf (true, false)) = Ok (vals x, pull) /\
    pull (Leaf None) = Err ValueError /\ pull (Leaf (Some false)) = Ok (Leaf (Some false)) /\ pull (Leaf (Some true)) = Err RuntimeError.
Proof.
  exists (Leaf (false, true)).
  destruct (C85_gradient (fun _ => true) (fun _ => true) (fun _ => true) (fun _ => true) (fun b => b) (fun b => b) ltac:(reflexivity) ltac:(reflexivity)
    (Leaf (false, true)) TNone (Leaf (true, false))) as (pull & E & P).
  - intros a _. reflexivity.
  - intros p [].
  - intros p [<-|[]]. reflexivity.
  - exists pull. split; [exact E|]. split; [|split].
    + exact (P (Leaf (false, None)) eq_refl ltac:(constructor)).
    + exact (P (Leaf (false, Some false)) eq_refl ltac:(repeat constructor)).
    + exact (P (Leaf (false, Some true)) eq_refl ltac:(repeat constructor)).
Qed.
Print Assumptions C85_no_cotangent_refuted.

Section AnnounceProps.
  Context {V : Type}.
  Notation traced := (traced V).
  Variable jitted : bool.
  (** ** Lemmas *)
  Lemma refill_nonzero {X} (ts : list (option X)) : refill ts (nonzero ts) = Ok ts.
  Proof. induction ts as [|[t|] ts IH]; cbn; [reflexivity|rewrite IH; reflexivity..]. Qed.
  Lemma combine_fst_snd {X Y} (xs : list (X * Y)) : List.combine (map fst xs) (map snd xs) = xs.
  Proof. induction xs as [|[a b] xs IH]; cbn; [reflexivity|]. f_equal. exact IH. Qed.
  Lemma bind_id inter ks : forall stack (xs : list (traced ks)), snd (bind_p V jitted inter ks stack xs) = Ok xs.
  Proof.
    induction ks as [|[|] ks IH]; intros stack xs; [reflexivity| |]; cbn [bind_p].
    - match goal with |- context [if ?c then _ else _] => destruct c eqn:F end.
      + specialize (IH stack (map snd xs)). destruct (bind_p _ _ _ ks _ _) as [a out]. cbn [snd] in IH |- *. rewrite IH. cbn [rmap bind].
        f_equal. rewrite map_map. rewrite <- (map_id xs) at 2. apply map_ext_in. intros [[n|] x] Hx; [|reflexivity].
        rewrite forallb_forall in F. specialize (F _ Hx). discriminate.
      + specialize (IH (stack ++ [Vmap]) (map snd xs)). destruct (bind_p _ _ _ ks _ _) as [a out]. cbn [snd] in IH |- *. rewrite IH. cbn [rmap bind].
        rewrite combine_fst_snd. reflexivity.
    - match goal with |- context [if ?c then _ else _] => destruct c eqn:F end.
      + specialize (IH stack (map fst xs)). destruct (bind_p _ _ _ ks _ _) as [a out]. cbn [snd] in IH |- *. rewrite IH. cbn [rmap bind].
        f_equal. rewrite map_map. rewrite <- (map_id xs) at 2. apply map_ext_in. intros [x [t|]] Hx; [|reflexivity].
        rewrite forallb_forall in F. specialize (F _ Hx). discriminate.
      + pose proof (IH (stack ++ [JvpP]) (map fst xs)) as E1. destruct (bind_p _ _ _ ks (stack ++ [JvpP]) _) as [a p_out]. cbn [snd] in E1.
        assert (E2 : snd (match nonzero (map snd xs) with [] => ([], Ok []) | _ => bind_p V jitted inter ks (stack ++ [JvpT]) (nonzero (map snd xs)) end)
                     = Ok (nonzero (map snd xs))).
        { destruct (nonzero (map snd xs)) eqn:N; [reflexivity|]. apply IH. }
        destruct (match nonzero (map snd xs) with [] => _ | _ => _ end) as [b t_out]. cbn [snd] in E2 |- *. rewrite E1, E2. cbn [bind].
        rewrite refill_nonzero. cbn [bind]. rewrite combine_fst_snd. reflexivity.
  Qed.

  (** C86. The identity on PyTrees, under any stack of [vmap]s and [jvp]s, on primals and tangents. *)
  Theorem C86_identity : forall inter ks (x : tree (leaf V ks)), snd (announce_transform V jitted inter ks x) = Ok x.
  Proof.
    intros inter ks x. unfold announce_transform. rewrite partition_lw.
    set (array := lw (fun a => if is_array V a then Leaf a else TNone) x).
    set (flat := flat_map (fun l => match l with Leaf (Array _ _ x) => [x] | _ => [] end) (leaves no_leaf array)).
    pose proof (bind_id inter ks [] flat) as E. destruct (bind_p _ _ _ _ _ _) as [a out]. cbn [snd] in E |- *. rewrite E. cbn [bind].
    assert (F : map (fun x => Leaf (Array V ks x)) flat = map Leaf (labels array)).
    { unfold flat. rewrite leaves_labels. unfold array. rewrite labels_lw. induction (labels x) as [|[v|o] l IH]; [reflexivity| |]; cbn [flat_map is_array labels app map].
      - f_equal. exact IH.
      - exact IH. }
    rewrite F. rewrite (unflatten_other array array eq_refl). cbn [bind]. unfold array. apply join2.
  Qed.

  (** ** What is announced *)
  (** One word for each choice of primal or tangent. *)
  Definition last_words : list (list mark) := if jitted then [[Abstract]; [Mlir]] else [[Impl]].
  Fixpoint words (ks : list kind) : list (list mark) :=
    match ks with
    | [] => last_words
    | KVmap :: ks => map (cons Vmap) (words ks)
    | KJvp :: ks => map (cons JvpP) (words ks) ++ map (cons JvpT) (words ks)
    end.
  (** Batched by every [vmap], with tangents for every [jvp]. *)
  Fixpoint full (ks : list kind) : traced ks -> Prop :=
    match ks return traced ks -> Prop with
    | [] => fun _ => True
    | KVmap :: ks => fun x => fst x <> None /\ full ks (snd x)
    | KJvp :: ks => fun x => full ks (fst x) /\ match snd x with Some t => full ks t | None => False end
    end.
  Theorem C86_announced : forall ks stack (xs : list (traced ks)), xs <> [] -> Forall (full ks) xs ->
    fst (bind_p V jitted false ks stack xs) = map (app stack) (words ks).
  Proof.
    induction ks as [|[|] ks IH]; intros stack xs Hn Hf; cbn [bind_p words].
    - unfold last_words. destruct jitted; reflexivity.
    - assert (F : forallb (fun x : option nat * traced ks => match fst x with None => true | _ => false end) xs = false).
      { destruct xs as [|[[n|] x] xs]; [congruence|reflexivity|]. apply Forall_inv in Hf. destruct Hf as [C _]. now destruct C. }
      match goal with |- context [if ?c then _ else _] => assert (Ec : c = false) by exact F; rewrite Ec; clear Ec end. specialize (IH (stack ++ [Vmap]) (map snd xs)). destruct (bind_p _ _ _ ks _ _) as [a out]. cbn [fst app] in IH |- *. rewrite IH.
      + rewrite map_map. apply map_ext. intros w. rewrite <- app_assoc. reflexivity.
      + destruct xs; [congruence|discriminate].
      + apply Forall_map. eapply Forall_impl; [|exact Hf]. intros y [_ Hy]. exact Hy.
    - assert (F : forallb (fun x : traced ks * option (traced ks) => match snd x with None => true | _ => false end) xs = false).
      { destruct xs as [|[x [t|]] xs]; [congruence|reflexivity|]. apply Forall_inv in Hf. destruct Hf as [_ []]. }
      match goal with |- context [if ?c then _ else _] => assert (Ec : c = false) by exact F; rewrite Ec; clear Ec end. pose proof (IH (stack ++ [JvpP]) (map fst xs)) as E1. destruct (bind_p _ _ _ ks (stack ++ [JvpP]) _) as [a p_out]. cbn [fst] in E1.
      assert (N : nonzero (map snd xs) <> [] /\ Forall (full ks) (nonzero (map snd xs))).
      { split; [destruct xs as [|[x [t|]] xs]; [congruence|discriminate|]; apply Forall_inv in Hf; destruct Hf as [_ []]|].
        clear -Hf. induction Hf as [|[x [t|]] xs [_ H] _ IHf]; cbn; [constructor|constructor; [exact H|exact IHf]|destruct H]. }
      destruct N as [N1 N2]. pose proof (IH (stack ++ [JvpT]) (nonzero (map snd xs)) N1 N2) as E2.
      destruct (nonzero (map snd xs)) as [|t ts]; [congruence|]. destruct (bind_p _ _ _ ks (stack ++ [JvpT]) _) as [b t_out]. cbn [fst app] in E2 |- *.
      rewrite E1, E2.
      + rewrite map_app, !map_map. f_equal; apply map_ext; intros w; rewrite <- app_assoc; reflexivity.
      + destruct xs; [congruence|discriminate].
      + apply Forall_map. eapply Forall_impl; [|exact Hf]. intros y [Hy _]. exact Hy.
  Qed.

  (** For a PyTree: that of its arrays, in one go. *)
  Theorem C86_announced_tree : forall ks (x : tree (leaf V ks)) (arrays : list (traced ks)),
    map (Array V ks) arrays = List.filter (fun l => match l with Array _ _ _ => true | Other _ _ _ => false end) (labels x) ->
    forall inter, fst (announce_transform V jitted inter ks x) = fst (bind_p V jitted inter ks [] arrays).
  Proof.
    intros ks x arrays H inter. unfold announce_transform. rewrite partition_lw.
    set (array := lw (fun a => if is_array V a then Leaf a else TNone) x).
    assert (E : flat_map (fun l => match l with Leaf (Array _ _ x) => [x] | _ => [] end) (leaves no_leaf array) = arrays).
    { rewrite leaves_labels. unfold array. rewrite labels_lw. revert arrays H. induction (labels x) as [|[v|o] l IH]; intros arrays H; cbn [flat_map is_array labels app map List.filter] in *.
      - destruct arrays; [reflexivity|discriminate].
      - destruct arrays as [|w arrays]; [discriminate|]. cbn [map] in H. injection H as E H. f_equal; [congruence|]. apply IH. exact H.
      - apply IH. exact H. }
    rewrite E. destruct (bind_p _ _ _ _ _ _). reflexivity.
  Qed.

  (** [intermediates] adds announcements of rules being applied, and changes nothing else. *)
  Definition finished (w : list mark) : bool := match rev w with (Impl | Abstract | Mlir) :: _ => true | _ => false end.
  Lemma finished_app w m : finished (w ++ [m]) = match m with Impl | Abstract | Mlir => true | _ => false end.
  Proof. unfold finished. rewrite rev_unit. destruct m; reflexivity. Qed.
  Lemma filter_app' {X} (f : X -> bool) l l' : List.filter f (l ++ l') = List.filter f l ++ List.filter f l'.
  Proof. induction l as [|x l IH]; cbn; [reflexivity|]. destruct (f x); cbn; rewrite IH; reflexivity. Qed.
  Theorem C86_intermediates : forall ks stack (xs : list (traced ks)),
    List.filter finished (fst (bind_p V jitted true ks stack xs)) = fst (bind_p V jitted false ks stack xs).
  Proof.
    induction ks as [|[|] ks IH]; intros stack xs; cbn [bind_p].
    - destruct jitted; cbn [fst List.filter]; rewrite !finished_app; reflexivity.
    - match goal with |- context [if ?c then _ else _] => destruct c end.
      + specialize (IH stack (map snd xs)). destruct (bind_p _ _ true ks _ _), (bind_p _ _ false ks _ _). exact IH.
      + specialize (IH (stack ++ [Vmap]) (map snd xs)). destruct (bind_p _ _ true ks _ _), (bind_p _ _ false ks _ _). cbn [fst app List.filter] in IH |- *.
        rewrite finished_app. exact IH.
    - match goal with |- context [if ?c then _ else _] => destruct c end.
      + specialize (IH stack (map fst xs)). destruct (bind_p _ _ true ks _ _), (bind_p _ _ false ks _ _). exact IH.
      + pose proof (IH (stack ++ [JvpP]) (map fst xs)) as E1. destruct (bind_p _ _ true ks (stack ++ [JvpP]) _), (bind_p _ _ false ks (stack ++ [JvpP]) _).
        destruct (nonzero (map snd xs)) as [|t ts].
        * cbn [fst app List.filter] in E1 |- *. rewrite finished_app, !app_nil_r. exact E1.
        * pose proof (IH (stack ++ [JvpT]) (t :: ts)) as E2. destruct (bind_p _ _ true ks (stack ++ [JvpT]) _), (bind_p _ _ false ks (stack ++ [JvpT]) _).
          cbn [fst app List.filter] in E1, E2 |- *. rewrite finished_app, filter_app', E1, E2. reflexivity.
  Qed.

  (** C86. Reverse mode: right for at most one differentiated array (whose cotangent is there), TypeError for two or more. *)
  Theorem C86_reverse_partial : forall inter (xs : list (V * bool)) (cts : list (option V)), List.length cts = List.length xs ->
    (forall p, In p xs -> snd p = false) \/ (exists l x r c l' r', xs = l ++ (x, true) :: r /\ cts = l' ++ Some c :: r' /\ List.length l' = List.length l /\
      (forall p, In p (l ++ r) -> snd p = false)) ->
    grad_p V jitted inter xs cts = Ok (map snd (List.filter (fun p => snd (fst p)) (List.combine xs cts))).
  Proof.
    assert (Z : forall (xs : list (V * bool)) (cts : list (option V)), (forall p, In p xs -> snd p = false) ->
      List.filter snd xs = [] /\ List.filter (fun p => snd (fst p)) (List.combine xs cts) = []).
    { induction xs as [|[x b] xs IH]; intros cts H; [split; reflexivity|]. assert (b = false) as -> by (apply (H (x, b)); left; reflexivity).
      assert (H' : forall p, In p xs -> snd p = false) by (intros p Hp; apply H; right; exact Hp). split; [apply (IH [] H')|].
      destruct cts as [|c cts]; [reflexivity|]. apply (IH cts H'). }
    intros inter xs cts Hl [H|(l & x & r & c & l' & r' & -> & -> & Hl' & H)].
    - destruct (Z xs cts H) as [E1 E2]. unfold grad_p. rewrite E1, E2. reflexivity.
    - assert (Hc : List.combine (l ++ (x, true) :: r) (l' ++ Some c :: r') = List.combine l l' ++ ((x, true), Some c) :: List.combine r r').
      { clear -Hl'. revert l' Hl'. induction l as [|p l IH]; intros [|q l'] Hl'; try discriminate; [reflexivity|]. cbn. f_equal. apply IH. cbn in Hl'. lia. }
      assert (Hr : forall p, In p r -> snd p = false) by (intros p Hp; apply H; apply in_or_app; auto).
      assert (Hll : forall p, In p l -> snd p = false) by (intros p Hp; apply H; apply in_or_app; auto).
      unfold grad_p. rewrite Hc, !filter_app'. cbn [List.filter fst snd].
      rewrite (proj1 (Z l [] Hll)), (proj1 (Z r [] Hr)), (proj2 (Z l l' Hll)), (proj2 (Z r r' Hr)). cbn. destruct jitted; reflexivity.
  Qed.
  Theorem C86_reverse_refuted : forall inter (xs : list (V * bool)) (cts : list (option V)), 2 <= List.length (List.filter snd xs) ->
    grad_p V jitted inter xs cts = Err TypeError.
  Proof.
    intros inter xs cts H. unfold grad_p. destruct (List.filter snd xs) as [|a [|b l]]; cbn in H; [lia|lia|]. reflexivity.
  Qed.
  (** C86. Transposition of one operand is announced, and hands the cotangent on; a missing cotangent is refused. *)
  Theorem C86_transposed : forall inter stack c,
    transpose_p V jitted inter 1 stack [Some c] =
      ((if inter then [stack ++ [Transpose]] else []) ++
       (if jitted then [stack ++ [Transpose; Abstract]; stack ++ [Transpose; Mlir]] else [stack ++ [Transpose; Impl]]), Ok [Some c]) /\
    (forall cts, In None cts -> transpose_p V jitted inter 1 stack cts = ((if inter then [stack ++ [Transpose]] else []), Err TypeError)) /\
    (forall n cts, n <> 1 -> transpose_p V jitted inter n stack cts = ([], Err TypeError)).
  Proof.
    intros inter stack c. split; [|split].
    2: { intros cts H. unfold transpose_p. cbn [Nat.eqb negb]. replace (existsb _ cts) with true; [reflexivity|]. symmetry. apply existsb_exists. exists None. auto. }
    2: { intros n cts H. unfold transpose_p. destruct (Nat.eqb_spec n 1); [contradiction|]. reflexivity. } unfold transpose_p. cbn [Nat.eqb negb existsb orb bind_p nonzero]. destruct jitted; rewrite <- ?app_assoc; reflexivity.
  Qed.
End AnnounceProps.
Print Assumptions C86_transposed.
Print Assumptions C86_identity.
Print Assumptions C86_announced.
Print Assumptions C86_announced_tree.
Print Assumptions C86_intermediates.
Print Assumptions C86_reverse_partial.
Print Assumptions C86_reverse_refuted.

(** vmap of jvp, with and without a second operand that is neither batched nor has a tangent. *)
Example C86_ex : let ks := [KVmap; KJvp] in
  fst (bind_p nat false true ks [] [(Some 0, (1, Some 2)); (None, (3, None))]) =
    [[Vmap]; [Vmap; Jvp]; [Vmap; JvpP; Impl]; [Vmap; JvpT; Impl]] /\
  fst (bind_p nat true false ks [] [(None, (3, None))]) = [[Abstract]; [Mlir]] /\
  grad_p nat false false [(1, true); (2, false)] [Some 5; None] = Ok [Some 5] /\
  grad_p nat false false [(1, true)] [None] = Err TypeError.
Proof. repeat split. Qed.
Example C85_ex : backward_nan (fun _ => true) (fun n => Nat.ltb n 5) (fun _ => true) (fun _ => true) (fun n => Nat.eqb n 3)
    (Node 0 [Leaf 1; TNone; Leaf 7]) TNone (Leaf 1) = Ok (Node 0 [Leaf 1; TNone; Leaf 7]).
Proof. reflexivity. Qed.
