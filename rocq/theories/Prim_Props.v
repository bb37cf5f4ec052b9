(** C45: filtered primitives see the arguments their caller passed, and callers see the results
    the rules returned. *)
From Verif Require Import Filters_Proofs Tree_Rel Prim_Spec Prim_Proofs.

Section Props.
  Context {L : Type}.
  Variable is_arr arr_like : L -> bool.
  Variable teq : tree L -> tree L -> bool.

  (** Evaluating a filtered primitive is calling its implementation rule: same arguments, same
      result, same exception. *)
  Theorem C45_bind : forall (rule : tree L -> res (tree L)) args,
    prim_bind is_arr arr_like teq rule args = rule args.
  Proof.
    intros rule args. unfold prim_bind, prim_def.
    pose proof (combine_unflatten is_arr Leaf args _ _ (fills_self is_arr args)) as H.
    unfold pack_dynamic, pack_static. rewrite pack_statics.
    destruct (combine_flat _ _) as [flat|e]; [cbn [bind] in H |- *|discriminate].
    rewrite H. cbn [bind]. destruct (rule args) as [out|e]; [cbn [bind]|reflexivity].
    unfold flatten_call. rewrite partition_pred. cbn [bind fl_store].
    rewrite dynp_leaves. apply unpack_fills; [apply fills_self|].
    apply Forall_forall. intros t Ht. apply filter_In in Ht as [Ht _].
    pose proof (leaves_are_Leaf out) as HL. rewrite Forall_forall in HL. auto.
  Qed.

  (** Under tracing, the caller gets what the abstract evaluation rule returned with every
      array-like leaf replaced by the corresponding tracer and everything else unchanged. *)
  Theorem C45_traced : forall (absrule : tree L -> res (tree L)) tracer args out,
    absrule args = Ok out ->
    exists y, prim_bind_traced is_arr arr_like teq absrule tracer args = Ok y /\
      fills arr_like Leaf out
        (map (fun t => Leaf (tracer t)) (List.filter (on_leaf arr_like) (leaves no_leaf out))) y.
  Proof.
    intros absrule tracer args out Hr.
    destruct (fills_exists arr_like Leaf out
      (map (fun t => Leaf (tracer t)) (List.filter (on_leaf arr_like) (leaves no_leaf out)))) as [y Hy].
    { rewrite map_length. reflexivity. }
    exists y. split; [|exact Hy]. unfold prim_bind_traced, prim_def.
    pose proof (combine_unflatten is_arr Leaf args _ _ (fills_self is_arr args)) as H.
    unfold pack_dynamic, pack_static. rewrite pack_statics.
    destruct (combine_flat _ _) as [flat|e]; [cbn [bind] in H |- *|discriminate].
    rewrite H. cbn [bind]. rewrite Hr. cbn [bind].
    unfold flatten_call. rewrite partition_pred. cbn [bind fl_store].
    rewrite dynp_leaves. apply unpack_fills; [exact Hy|].
    apply Forall_forall. intros t Ht. apply in_map_iff in Ht as (u & <- & _). eexists; reflexivity.
  Qed.

  (** A rule invoked later (by JIT, differentiation or batching) with other dynamic values sees
      the original arguments with exactly the arrays replaced, in order; and its output must
      have the recorded structure and static part. *)
  Theorem C45_rule_args : forall (rule : tree L -> res (tree L)) args vs st,
    length vs = length (List.filter (on_leaf is_arr) (leaves no_leaf args)) ->
    exists y, fills is_arr Leaf args vs y /\
      prim_def arr_like teq rule vs (treedef no_leaf args) (pack_static is_arr args) st
      = (out <- rule y ;; flatten_call arr_like teq st out).
  Proof.
    intros rule args vs st Hl. destruct (fills_exists is_arr Leaf args vs Hl) as [y Hy].
    exists y. split; [exact Hy|]. unfold prim_def.
    pose proof (combine_unflatten is_arr Leaf args _ _ Hy) as H.
    unfold pack_static. rewrite pack_statics.
    destruct (combine_flat _ _) as [flat|e]; [cbn [bind] in H |- *|discriminate].
    rewrite H. reflexivity.
  Qed.

  Theorem C45_twice : forall out out' st flat,
    flatten_call arr_like teq None out = Ok (flat, st) ->
    flatten_call arr_like teq st out' =
      (if tdef_eqb (treedef no_leaf (tmap no_leaf (fun s => if on_leaf arr_like s then s else TNone) out))
                   (treedef no_leaf (tmap no_leaf (fun s => if on_leaf arr_like s then s else TNone) out'))
          && teq (tmap no_leaf (fun s => if on_leaf arr_like s then TNone else s) out)
                 (tmap no_leaf (fun s => if on_leaf arr_like s then TNone else s) out')
       then Ok (List.filter (on_leaf arr_like) (leaves no_leaf out'), st)
       else Err AssertionError).
  Proof.
    intros out out' st flat H. unfold flatten_call in *. rewrite partition_pred in *.
    cbn [bind fl_store] in *. injection H as _ <-. rewrite dynp_leaves.
    fold (dynp arr_like out) (dynp arr_like out') (stap arr_like out) (stap arr_like out').
    cbn [fl_store]. destruct (tdef_eqb _ _); cbn [andb bind]; [|reflexivity].
    destruct (teq _ _); reflexivity.
  Qed.

  Lemma from_opt : forall (f : option L * option L -> option L) l,
    map from_none (map (fun p => opt_tree (f p)) l) = map f l.
  Proof. intros f l. rewrite map_map. apply map_ext. intros p. destruct (f p); reflexivity. Qed.

  (** JVP and batching rules: the rule sees the primals, and the tangents (batch axes) with
      [None] at every static leaf; its outputs are flattened to the arrays and the leaves with
      a tangent, paired in order; the recorded structure rebuilds the primal output. *)
  Theorem C45_jvp : forall rule args primals tangents,
    length primals = length (List.filter (on_leaf is_arr) (leaves no_leaf args)) ->
    length tangents = length primals ->
    exists ps ts,
      fills is_arr Leaf args primals ps /\
      fills is_arr (fun _ => TNone) args (map to_none tangents) ts /\
      (forall e, rule ps ts = Err e ->
         prim_jvp arr_like teq rule primals tangents (treedef no_leaf args) (pack_static is_arr args) None
         = Err e) /\
      (forall po to l, rule ps ts = Ok (po, to) -> pairs po to l ->
         Forall (fun p => fst p = None -> snd p = None) l ->
         exists st,
           prim_jvp arr_like teq rule primals tangents (treedef no_leaf args) (pack_static is_arr args) None
           = Ok (map (fun p => opt_tree (fst p)) (List.filter (kept arr_like) l),
                 map snd (List.filter (kept arr_like) l), st) /\
           unpack st (map (fun p => opt_tree (fst p)) (List.filter (kept arr_like) l)) = Ok po) /\
      (forall po to, rule ps ts = Ok (po, to) ->
         (forall l, pairs po to l -> exists b, In (None, Some b) l) ->
         prim_jvp arr_like teq rule primals tangents (treedef no_leaf args) (pack_static is_arr args) None
         = Err AssertionError).
  Proof.
    intros rule args primals tangents H1 H2.
    destruct (fills_exists is_arr Leaf args primals H1) as [ps Hps].
    destruct (fills_exists is_arr (fun _ => TNone) args (map to_none tangents)) as [ts Hts].
    { rewrite map_length, H2. exact H1. }
    exists ps, ts. split; [exact Hps|]. split; [exact Hts|].
    assert (HS : none_static (pack_static is_arr args)
                 = statics is_arr (fun _ => TNone) (leaves no_leaf args)).
    { unfold none_static, pack_static, statics. rewrite map_map. apply map_ext_in. intros t Ht.
      pose proof (leaves_are_Leaf args) as HL. rewrite Forall_forall in HL.
      destruct (HL t Ht) as [a ->]. simpl. destruct (is_arr a); reflexivity. }
    assert (HJ : forall st, prim_jvp arr_like teq rule primals tangents (treedef no_leaf args) (pack_static is_arr args) st
      = ('(po, to) <- rule ps ts ;; '(fp, ft, st') <- flatten_like arr_like teq st po to ;;
         Ok (fp, map from_none ft, st'))).
    { intros st. unfold prim_jvp. rewrite HS.
      pose proof (combine_unflatten is_arr Leaf args _ _ Hps) as A.
      pose proof (combine_unflatten is_arr (fun _ => TNone) args _ _ Hts) as B.
      unfold pack_static. rewrite pack_statics.
      destruct (combine_flat primals _) as [p|]; [cbn [bind] in A |- *|discriminate].
      rewrite A. cbn [bind].
      destruct (combine_flat (map to_none tangents) _) as [t|]; [cbn [bind] in B |- *|discriminate].
      rewrite B. reflexivity. }
    split; [|split].
    - intros e E. rewrite HJ, E. reflexivity.
    - intros po to l E Hp HF. rewrite HJ, E. cbn [bind].
      assert (Hb : existsb (@bad L) l = false).
      { destruct (existsb bad l) eqn:Eb; [|reflexivity]. apply existsb_exists in Eb as ([[a|] [b|]] & Hin & Hb);
          try discriminate. rewrite Forall_forall in HF. specialize (HF _ Hin eq_refl). discriminate. }
      destruct (flatten_like_ok arr_like teq po to l Hp Hb) as (d & s & F1 & F2 & F3).
      rewrite F1. cbn [bind]. exists (Some (treedef no_leaf d, s)). split.
      + unfold flat_like. rewrite from_opt. reflexivity.
      + fold (flat_out arr_like l). rewrite <- F2. unfold unpack.
        rewrite unflatten_flatten. cbn [bind]. rewrite combine_two. exact F3.
    - intros po to E HB. rewrite HJ, E. cbn [bind].
      rewrite flatten_like_err; [reflexivity|]. intros l Hl. destruct (HB l Hl) as [b Hin].
      apply existsb_exists. exists (None, Some b). split; [exact Hin|reflexivity].
  Qed.

  Lemma pairs_first :
    (forall (x y : tree L) l, pairs x y l ->
       leaves no_leaf x = concat (map (fun p => match fst p with Some a => [Leaf a] | None => [] end) l)) /\
    (forall (xs ys : list (tree L)) l, pairs_list xs ys l ->
       concat (map (leaves no_leaf) xs)
       = concat (map (fun p => match fst p with Some a => [Leaf a] | None => [] end) l)).
  Proof.
    apply pairs_mut.
    - intros x y [a|] b -> _; reflexivity.
    - intros k cs ds l _ IH. exact IH.
    - reflexivity.
    - intros c cs d ds l1 l2 _ IH1 _ IH2. simpl. rewrite map_app, concat_app, IH1, IH2. reflexivity.
  Qed.

  Lemma fills_like :
    (forall x vs y, fills is_arr Leaf x vs y ->
       Forall (fun t => exists a, t = Leaf a /\ arr_like a = true) vs ->
       Forall (fun t => on_leaf is_arr t = false -> on_leaf arr_like t = false) (leaves no_leaf x) ->
       List.filter (on_leaf arr_like) (leaves no_leaf y) = vs) /\
    (forall xs vs ys, fills_list is_arr Leaf xs vs ys ->
       Forall (fun t => exists a, t = Leaf a /\ arr_like a = true) vs ->
       Forall (fun t => on_leaf is_arr t = false -> on_leaf arr_like t = false) (concat (map (leaves no_leaf) xs)) ->
       List.filter (on_leaf arr_like) (concat (map (leaves no_leaf) ys)) = vs).
  Proof.
    apply fills_mut.
    - intros a v _ Hv _. inversion Hv as [|v0 l0 (b & -> & Hb) _]. simpl. rewrite Hb. reflexivity.
    - intros a Ha _ Hs. inversion Hs as [|t0 l0 Ht _]. simpl in *. rewrite (Ht Ha). reflexivity.
    - reflexivity.
    - intros k cs vs ds _ IH Hv Hs. exact (IH Hv Hs).
    - reflexivity.
    - intros c cs v vs d ds _ IH1 _ IH2 Hv Hs. simpl in Hs.
      apply Forall_app in Hv as [Hv1 Hv2]. apply Forall_app in Hs as [Hs1 Hs2].
      simpl. rewrite filter_app, IH1, IH2 by assumption. reflexivity.
  Qed.

  (** The array-like inputs among a list of pairs. *)
  Definition is_in (p : option L * option L) : bool :=
    match fst p with Some a => arr_like a | None => false end.
  Lemma filter_is_in l :
    List.filter (on_leaf arr_like)
      (concat (map (fun p : option L * option L => match fst p with Some a => [Leaf a] | None => [] end) l))
    = map (fun p => opt_tree (fst p)) (List.filter is_in l).
  Proof.
    induction l as [|[[a|] b] l IH]; simpl; [reflexivity| |exact IH].
    unfold is_in at 1. simpl. destruct (arr_like a); simpl; rewrite IH; reflexivity.
  Qed.

  (** Transposition rules: the rule gets the inputs and the output cotangents in the shape of
      the outputs; it must return one cotangent (or [None]) for each dynamic input, which is
      passed on at the position of that input. A cotangent for a static leaf, for [None], or a
      result of another structure is an [AssertionError]. *)
  Theorem C45_transpose : forall rule td_out cts_out co args dynamic,
    length dynamic = length (List.filter (on_leaf is_arr) (leaves no_leaf args)) ->
    Forall (fun t => exists a, t = Leaf a /\ arr_like a = true) dynamic ->
    Forall (fun t => on_leaf is_arr t = false -> on_leaf arr_like t = false) (leaves no_leaf args) ->
    unflatten td_out (map to_none cts_out) = Ok co ->
    exists inputs, fills is_arr Leaf args dynamic inputs /\
      (forall e, rule inputs co = Err e ->
         prim_transpose arr_like teq rule td_out cts_out dynamic (treedef no_leaf args) (pack_static is_arr args)
         = Err e) /\
      (forall cts l, rule inputs co = Ok cts -> pairs inputs cts l ->
         Forall (fun p => is_in p = false -> snd p = None) l ->
         prim_transpose arr_like teq rule td_out cts_out dynamic (treedef no_leaf args) (pack_static is_arr args)
           = Ok (map snd (List.filter is_in l)) /\
         map (fun p => opt_tree (fst p)) (List.filter is_in l) = dynamic) /\
      (forall cts, rule inputs co = Ok cts ->
         (forall l, pairs inputs cts l -> exists p, In p l /\ is_in p = false /\ snd p <> None) ->
         prim_transpose arr_like teq rule td_out cts_out dynamic (treedef no_leaf args) (pack_static is_arr args)
           = Err AssertionError).
  Proof.
    intros rule td_out cts_out co args dynamic Hl Hd Hs Hco.
    destruct (fills_exists is_arr Leaf args dynamic Hl) as [inputs Hi].
    exists inputs. split; [exact Hi|].
    assert (HT : prim_transpose arr_like teq rule td_out cts_out dynamic (treedef no_leaf args) (pack_static is_arr args)
      = (cts <- rule inputs co ;; '(_, flat_cts, _) <- flatten_like arr_like teq None inputs cts ;;
         if Nat.eqb (length dynamic) (length flat_cts) then Ok (map from_none flat_cts) else Err AssertionError)).
    { unfold prim_transpose. rewrite Hco. cbn [bind].
      pose proof (combine_unflatten is_arr Leaf args _ _ Hi) as A.
      unfold pack_static. rewrite pack_statics.
      destruct (combine_flat dynamic _) as [p|]; [cbn [bind] in A |- *|discriminate].
      rewrite A. cbn [bind]. destruct (rule inputs co); [|reflexivity]. cbn [bind].
      destruct (flatten_like _ _ _ _ _) as [[[fo fl] st]|]; reflexivity. }
    assert (HD : forall cts l, pairs inputs cts l ->
      map (fun p => opt_tree (fst p)) (List.filter is_in l) = dynamic).
    { intros cts l Hp. rewrite <- filter_is_in, <- (proj1 pairs_first inputs cts l Hp).
      apply (proj1 fills_like args dynamic inputs); assumption. }
    split; [|split].
    - intros e E. rewrite HT, E. reflexivity.
    - intros cts l E Hp HF. pose proof (HD cts l Hp) as HDl. split; [|exact HDl].
      rewrite HT, E. cbn [bind].
      assert (Hk : List.filter (kept arr_like) l = List.filter is_in l).
      { apply filter_ext_in. intros [[a|] [b|]] Hin; simpl; try reflexivity.
        rewrite Forall_forall in HF. specialize (HF _ Hin). unfold is_in in *; simpl in *.
        destruct (arr_like a); [reflexivity|specialize (HF eq_refl); discriminate]. }
      assert (Hb : existsb (@bad L) l = false).
      { destruct (existsb bad l) eqn:Eb; [|reflexivity]. apply existsb_exists in Eb as ([[a|] [b|]] & Hin & Hb);
          try discriminate. rewrite Forall_forall in HF. specialize (HF _ Hin eq_refl). discriminate. }
      destruct (flatten_like_ok arr_like teq inputs cts l Hp Hb) as (d & s & F1 & _ & _).
      rewrite F1. cbn [bind]. unfold flat_like. rewrite Hk, from_opt, map_length.
      rewrite <- HDl, map_length, Nat.eqb_refl. reflexivity.
    - intros cts E HB. rewrite HT, E. cbn [bind].
      destruct (tdef_eqb (treedef is_none inputs) (treedef is_none cts)) eqn:Et.
      2:{ unfold flatten_like. rewrite Et. reflexivity. }
      apply tdef_eqb_spec in Et. destruct (def_pairs inputs cts Et) as [l Hp].
      destruct (existsb (@bad L) l) eqn:Eb.
      { rewrite flatten_like_err; [reflexivity|]. intros l' Hl'.
        rewrite (proj1 pairs_fun _ _ _ Hl' _ Hp). exact Eb. }
      destruct (flatten_like_ok arr_like teq inputs cts l Hp Eb) as (d & s & F1 & _ & _).
      rewrite F1. cbn [bind]. unfold flat_like. rewrite map_length.
      rewrite <- (HD cts l Hp), map_length.
      destruct (HB l Hp) as (p & Hin & Hp1 & Hp2).
      assert (Hlt : length (List.filter is_in l) < length (List.filter (kept arr_like) l)).
      { assert (Hk : kept arr_like p = true).
        { destruct p as [[a|] [b|]]; simpl in *; try congruence.
          exfalso. assert (existsb (@bad L) l = true) by (apply existsb_exists; eexists; split; [exact Hin|reflexivity]). congruence. }
        assert (Himp : forall q, is_in q = true -> kept arr_like q = true).
        { intros [[a|] [b|]]; unfold is_in; simpl; congruence. }
        clear -Hin Hk Hp1 Himp.
        assert (Hle : forall m, length (List.filter is_in m) <= length (List.filter (kept arr_like) m)).
        { intros m. induction m as [|q l0 IH]; simpl; [lia|]. specialize (Himp q).
          destruct (is_in q); [rewrite (Himp eq_refl)|destruct (kept arr_like q)]; simpl; lia. }
        induction l as [|q l0 IH]; [destruct Hin|]. simpl. destruct Hin as [->|Hin].
        - rewrite Hk, Hp1. simpl. specialize (Hle l0). lia.
        - specialize (IH Hin). specialize (Himp q).
          destruct (is_in q); [rewrite (Himp eq_refl)|destruct (kept arr_like q)]; simpl; lia. }
      destruct (Nat.eqb_spec (length (List.filter is_in l)) (length (List.filter (kept arr_like) l))) as [He|_];
        [lia|reflexivity].
  Qed.
End Props.
Print Assumptions C45_bind.
Print Assumptions C45_traced.
Print Assumptions C45_rule_args.
Print Assumptions C45_twice.
Print Assumptions C45_jvp.
Print Assumptions C45_transpose.

(** Numbers below 10 are arrays, 10-19 abstract values (array-like, not arrays), others static. *)
Definition ex_arr (n : nat) : bool := n <? 10.
Definition ex_like (n : nat) : bool := n <? 20.
Definition ex_args : tree nat := Node 0 [Leaf 1; Leaf 30; TNone; Node 1 [Leaf 2; Leaf 31]].
Example C45_ex_bind :
  prim_bind ex_arr ex_like (fun _ _ => true) (fun a => Ok (Node 2 [a; Leaf 40; Leaf 5])) ex_args
  = Ok (Node 2 [ex_args; Leaf 40; Leaf 5]).
Proof. reflexivity. Qed.
Example C45_ex_jvp :
  prim_jvp ex_like (fun _ _ => true) (fun p t => Ok (p, t)) [Leaf 7; Leaf 8] [None; Some 9]
    (treedef no_leaf ex_args) (pack_static ex_arr ex_args) None
  = Ok ([Leaf 7; Leaf 8], [None; Some 9],
        Some (Node 0 [Leaf tt; TNone; TNone; Node 1 [Leaf tt; TNone]],
              Node 0 [TNone; Leaf 30; TNone; Node 1 [TNone; Leaf 31]])).
Proof. reflexivity. Qed.
Example C45_ex_transpose :
  prim_transpose ex_like (fun _ _ => true)
    (fun i c => Ok (Node 0 [Leaf 3; TNone; TNone; Node 1 [TNone; TNone]]))
    (Leaf tt) [Some 4] [Leaf 7; Leaf 8] (treedef no_leaf ex_args) (pack_static ex_arr ex_args)
  = Ok [Some 3; None].
Proof. reflexivity. Qed.

(** The condition of [C45_transpose] on static leaves is needed: with an abstract value (a
    [ShapedArray]) among the static arguments, even a correct transposition rule fails the final
    assertion, because [Flatten] takes the abstract value for a dynamic input. *)
Theorem C45_transpose_abstract_argument_refuted : 
  exists args dynamic cts,
    length dynamic = length (List.filter (on_leaf ex_arr) (leaves no_leaf args)) /\
    pairs args cts [(Some 1, Some 3); (Some 15, None)] /\
    prim_transpose ex_like (fun _ _ => true) (fun _ _ => Ok cts) (Leaf tt) [Some 4] dynamic
      (treedef no_leaf args) (pack_static ex_arr args) = Err AssertionError.
Proof.
  exists (Node 0 [Leaf 1; Leaf 15]), [Leaf 1], (Node 0 [Leaf 3; TNone]).
  split; [reflexivity|]. split; [|reflexivity].
  constructor. apply (pl_cons _ _ _ _ [(Some 1, Some 3)] [(Some 15, None)]); [constructor; reflexivity|].
  apply (pl_cons _ _ _ _ [(Some 15, None)] []); [constructor; reflexivity|constructor].
Qed.
Print Assumptions C45_transpose_abstract_argument_refuted.

(** The assertion of [_combine] that nothing is left over does not notice a left-over [None]. *)
Theorem C45_combine_leftover : forall (L : Type) (static : list (option (tree L))) dynamic v rest out,
  combine_loop dynamic static = Ok (out, []) ->
  combine_flat (dynamic ++ v :: rest) static
  = if is_none v then Ok out else Err AssertionError.
Proof.
  intros L static dynamic v rest out H. unfold combine_flat.
  assert (E : combine_loop (dynamic ++ v :: rest) static = Ok (out, v :: rest)).
  { revert dynamic out H; induction static as [|[x|] static IH]; intros dynamic out H; cbn [combine_loop] in *.
    - injection H as <- ->. reflexivity.
    - destruct (combine_loop dynamic static) as [[o r]|] eqn:E1; cbn [bind] in H; [|discriminate].
      injection H as <- ->. rewrite (IH _ _ E1). reflexivity.
    - destruct dynamic as [|d dynamic]; [discriminate|]. cbn [app].
      destruct (combine_loop dynamic static) as [[o r]|] eqn:E1; cbn [bind] in H; [|discriminate].
      injection H as <- ->. rewrite (IH _ _ E1). reflexivity. }
  rewrite E. cbn [bind]. destruct v; reflexivity.
Qed.
Print Assumptions C45_combine_leftover.
