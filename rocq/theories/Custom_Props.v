(** C65, C66: custom derivative rules. *)
From Verif Require Import Filters_Proofs Leafwise Custom_Model.

Section Props.
  Context {L : Type}.
  Variables is_arr inexact jax_type : L -> bool.
  Notation T := (tree L).

  (** ** Vocabulary *)
  (** Values annotated with a tangent or cotangent; [None]: there is none, or it is zero. *)
  Notation D := (L * option L)%type.
  Definition opt (t : option L) : T := match t with Some v => Leaf v | None => TNone end.
  (** The tree of values. *)
  Definition vals {X} (z : tree (L * X)) : T := lw (fun p => Leaf (fst p)) z.
  (** What JAX passes for the leaves satisfying [g]: an object for each. *)
  Definition passed {X} (g : L -> bool) (z : tree (L * X)) : tree X :=
    lw (fun p => if g (fst p) then Leaf (snd p) else TNone) z.
  (** What a rule sees: the nonzero tangents of the leaves satisfying [g]. *)
  Definition seen (g : L -> bool) (z : tree D) : T :=
    lw (fun p => if g (fst p) then opt (snd p) else TNone) z.

  (** Every value with JAX's objects for its leaves satisfying [g] is of this form. *)
  Lemma annotate {X} (g : L -> bool) (x0 : X) (x : T) : forall t : tree X,
    treedef no_leaf t = treedef no_leaf (lw (fun a => if g a then Leaf a else TNone) x) ->
    exists z : tree (L * X), vals z = x /\ passed g z = t.
  Proof.
    induction x as [a| |k cs IH] using tree_ind'; intros t Ht.
    - simpl in Ht. destruct (g a) eqn:Ha.
      + destruct t as [b| |]; try discriminate. exists (Leaf (a, b)). unfold vals, passed; simpl. rewrite Ha. auto.
      + destruct t as [b| |]; try discriminate. exists (Leaf (a, x0)). unfold vals, passed; simpl. rewrite Ha. auto.
    - destruct t; try discriminate. exists TNone. auto.
    - destruct t as [b| |k' ds]; try discriminate. cbn [lw treedef no_leaf] in Ht. injection Ht as -> Hd.
      assert (G : exists zs, map vals zs = cs /\ map (passed g) zs = ds).
      { revert ds Hd; induction IH as [|c cs Hc _ IHcs]; intros [|d ds] Hd; simpl in Hd; try discriminate.
        - exists []. auto.
        - injection Hd as Hd1 Hd2. destruct (Hc d Hd1) as (z & <- & <-). destruct (IHcs ds Hd2) as (zs & <- & <-).
          exists (z :: zs). auto. }
      destruct G as (zs & <- & <-). exists (Node k zs). auto.
  Qed.

  (** ** Lemmas *)
  Lemma combine_args_two (a b : T) : combine_args [a; b] = match a with TNone => b | _ => a end.
  Proof. destruct a, b; reflexivity. Qed.
  Lemma join2 (g : L -> bool) (x : T) :
    eqx_combine no_leaf [lw (fun a => if g a then Leaf a else TNone) x; lw (fun a => if g a then TNone else Leaf a) x] = Ok x.
  Proof.
    pose proof (combine_lw (fun a => if g a then Leaf a else TNone) [fun a => if g a then TNone else Leaf a] x) as E.
    cbn [map] in E. rewrite E.
    - f_equal. rewrite <- (lw_id x) at 2. apply lw_ext. intros a. destruct (g a); reflexivity.
    - intros a. destruct (g a); exact I.
  Qed.
  Lemma join2' (g : L -> bool) (x : T) :
    eqx_combine no_leaf [lw (fun a => if g a then TNone else Leaf a) x; lw (fun a => if g a then Leaf a else TNone) x] = Ok x.
  Proof.
    pose proof (combine_lw (fun a => if g a then TNone else Leaf a) [fun a => if g a then Leaf a else TNone] x) as E.
    cbn [map] in E. rewrite E.
    - f_equal. rewrite <- (lw_id x) at 2. apply lw_ext. intros a. destruct (g a); reflexivity.
    - intros a. destruct (g a); exact I.
  Qed.

  (** ** C65: [filter_custom_jvp] *)
  (** Not differentiated, the function is transparent. *)
  Theorem C65_call : forall (fn : T -> T -> res T) args kwargs,
    custom_jvp_call is_arr fn args kwargs = fn args kwargs.
  Proof.
    intros fn args kwargs. unfold custom_jvp_call. rewrite partition_lw. cbn [bind].
    unfold jvp_fn_wrapper. rewrite join2. reflexivity.
  Qed.

  Hypothesis inexact_arr : forall a, inexact a = true -> is_arr a = true.

  Lemma dropped (z : tree D) :
    tmap2 no_leaf (drop_nondiff inexact) (passed is_arr z) (lw (fun a => if is_arr a then Leaf a else TNone) (vals z))
    = Ok (seen inexact z).
  Proof.
    unfold passed, vals. rewrite lw_lw. cbn [lw]. apply tmap2_lw.
    intros [a t] _. cbn [fst snd]. destruct (is_arr a) eqn:Ha.
    - destruct t as [v|]; simpl.
      + destruct (inexact a); reflexivity.
      + destruct (inexact a); reflexivity.
    - split; [reflexivity|]. destruct (inexact a) eqn:Hi; [|reflexivity].
      rewrite (inexact_arr a Hi) in Ha. discriminate.
  Qed.
  Lemma seen_leaves (z : tree D) :
    length (leaves no_leaf (seen inexact z)) = 0 <->
    forall a v, In (a, Some v) (labels z) -> inexact a = false.
  Proof.
    unfold seen. rewrite leaves_labels, map_length, labels_lw.
    induction (labels z) as [|[a t] l IH]; simpl.
    - split; [intros _ a v []|reflexivity].
    - rewrite app_length. split.
      + intros H. assert (H1 : length (labels (if inexact a then opt t else TNone)) = 0) by lia.
        assert (H2 : length (flat_map (fun p : L * option L => labels (if inexact (fst p) then opt (snd p) else TNone)) l) = 0) by lia.
        intros b v [E|Hb].
        * injection E as -> ->. destruct (inexact b); [discriminate|reflexivity].
        * exact (proj1 IH H2 b v Hb).
      + intros H. rewrite (proj2 IH) by eauto.
        destruct t as [v|]; [rewrite (H a v) by auto; reflexivity|]. destruct (inexact a); reflexivity.
  Qed.

  (** The last part of the wrapper: [None] becomes a symbolic zero. *)
  Lemma zeroed (w : tree D) :
    (forall a, In (a, None) (labels w) -> jax_type a = true) ->
    tmap2 is_none (none_to_zero jax_type) (lw (fun p => opt (snd p)) w) (vals w) = Ok (lw (fun p => Leaf (snd p)) w).
  Proof.
    intros H. unfold vals. apply tmap2_lw_none; [reflexivity|].
    intros [a t] Hin. cbn [fst snd]. destruct t as [v|]; simpl; [auto|]. rewrite (H a Hin). auto.
  Qed.
  Lemma same_def (w : tree D) : tdef_eqb (treedef no_leaf (vals w)) (treedef no_leaf (lw (fun p => Leaf (snd p)) w)) = true.
  Proof. apply tdef_eqb_spec. unfold vals. apply treedef_lw; auto. Qed.

  (** Differentiated, no keyword argument having a tangent: the rule gets the arguments as the caller passed them,
      and exactly the nonzero tangents of inexact arrays, with [None] everywhere else. Exceptions of the rule pass
      through. Its outputs are returned, [None] standing for a zero tangent. *)
  Theorem C65_rule : forall (rule : T -> T -> T -> res (T * T)) (z zk : tree D),
    (forall a v, In (a, Some v) (labels zk) -> inexact a = false) ->
    let call := custom_jvp_jvp is_arr inexact jax_type rule (vals z) (vals zk) (Node 0 [passed is_arr z; passed is_arr zk]) in
    (forall e, rule (vals z) (seen inexact z) (vals zk) = Err e -> call = Err e) /\
    (forall w, rule (vals z) (seen inexact z) (vals zk) = Ok (vals w, lw (fun p => opt (snd p)) w) ->
       (forall a, In (a, None) (labels w) -> jax_type a = true) ->
       call = Ok (vals w, lw (fun p => Leaf (snd p)) w)).
  Proof.
    intros rule z zk Hk call.
    assert (E : call =
      ('(out, t_out) <- rule (vals z) (seen inexact z) (vals zk) ;;
       t_out <- tmap2 is_none (none_to_zero jax_type) t_out out ;;
       if tdef_eqb (treedef no_leaf out) (treedef no_leaf t_out) then Ok (out, t_out) else Err TypeError)).
    { unfold call, custom_jvp_jvp. rewrite partition_lw. cbn [bind]. unfold jvp_rule_wrapper.
      assert (E1 : tmap2 no_leaf (drop_nondiff inexact) (Node 0 [passed is_arr z; passed is_arr zk])
                     (lw (fun a => if is_arr a then Leaf a else TNone) (Node 0 [vals z; vals zk]))
                   = Ok (Node 0 [seen inexact z; seen inexact zk])).
      { exact (dropped (Node 0 [z; zk])). }
      rewrite E1. cbn [bind split2]. rewrite (proj2 (seen_leaves zk) Hk). cbn [Nat.eqb negb].
      rewrite join2. reflexivity. }
    split.
    - intros e Hr. rewrite E, Hr. reflexivity.
    - intros w Hr Hw. rewrite E, Hr. cbn [bind]. rewrite zeroed by exact Hw. cbn [bind]. rewrite same_def. reflexivity.
  Qed.

  (** A nonzero tangent of an inexact array among the keyword arguments is refused, whatever the rule. *)
  Theorem C65_keyword_tangent : forall (rule : T -> T -> T -> res (T * T)) (z zk : tree D) a v,
    In (a, Some v) (labels zk) -> inexact a = true ->
    custom_jvp_jvp is_arr inexact jax_type rule (vals z) (vals zk) (Node 0 [passed is_arr z; passed is_arr zk]) = Err ValueError.
  Proof.
    intros rule z zk a v Hin Ha. unfold custom_jvp_jvp. rewrite partition_lw. cbn [bind]. unfold jvp_rule_wrapper.
    assert (E1 : tmap2 no_leaf (drop_nondiff inexact) (Node 0 [passed is_arr z; passed is_arr zk])
                   (lw (fun a => if is_arr a then Leaf a else TNone) (Node 0 [vals z; vals zk]))
                 = Ok (Node 0 [seen inexact z; seen inexact zk])).
    { exact (dropped (Node 0 [z; zk])). }
    rewrite E1. cbn [bind split2].
    destruct (Nat.eqb (length (leaves no_leaf (seen inexact zk))) 0) eqn:E; [|reflexivity].
    apply Nat.eqb_eq in E. rewrite (proj1 (seen_leaves zk) E a v Hin) in Ha. discriminate.
  Qed.

  (** Whatever the rule returns, tangents are only accepted in the structure of the output. *)
  Theorem C65_structure : forall (rule : T -> T -> T -> res (T * T)) args kwargs tangents out t_out,
    custom_jvp_jvp is_arr inexact jax_type rule args kwargs tangents = Ok (out, t_out) ->
    treedef no_leaf out = treedef no_leaf t_out /\ exists t r, rule args t kwargs = Ok (out, r).
  Proof.
    intros rule args kwargs tangents out t_out. unfold custom_jvp_jvp. rewrite partition_lw. cbn [bind].
    unfold jvp_rule_wrapper. intros H. apply bind_ok in H as (t & _ & H). apply bind_ok in H as ([ta tk] & _ & H).
    destruct (negb _); [discriminate|]. rewrite join2 in H. cbn [bind split2] in H.
    apply bind_ok in H as ([o r] & Hr & H). apply bind_ok in H as (t' & _ & H).
    destruct (tdef_eqb _ _) eqn:E; [|discriminate]. injection H as -> ->.
    apply tdef_eqb_spec in E. split; [exact E|eauto].
  Qed.

  (** With the deprecated [defjvp] every inexact array has a tangent: zeros if there is none. *)
  Theorem C65_legacy : forall zeros_like (rule : T -> T -> T -> res (T * T)) (z : tree D) kwargs,
    legacy_rule inexact zeros_like rule (vals z) (seen inexact z) kwargs =
    rule (vals z)
      (lw (fun p => if inexact (fst p) then Leaf (match snd p with Some v => v | None => zeros_like (fst p) end) else TNone) z)
      kwargs.
  Proof.
    intros zl rule z kwargs. unfold legacy_rule.
    match goal with |- context [rule _ ?t kwargs] => assert (E : tmap2 no_leaf (materialise inexact zl) (vals z) (seen inexact z) = Ok t) end.
    { unfold vals, seen. apply tmap2_lw. intros [a t] _. cbn [fst snd]. destruct (inexact a) eqn:Ha; [|unfold materialise; rewrite Ha; reflexivity].
      destruct t as [v|]; unfold materialise; cbn [opt]; rewrite ?Ha; reflexivity. }
    rewrite E. reflexivity.
  Qed.

  (** ** C66: [filter_custom_vjp] *)
  (** Both rules must have been given, in either order. *)
  Inductive op := OFwd (f : @forward L) | OBwd (b : @backward L).
  Definition apply_op (o : @vjp_obj L) (p : op) : vjp_obj :=
    match p with OFwd f => def_fwd o f | OBwd b => def_bwd o b end.
  Definition is_fwd (p : op) : bool := match p with OFwd _ => true | OBwd _ => false end.
  Definition given (ops : list op) : @vjp_obj L := fold_left apply_op ops vjp_new.
  Lemma given_spec ops :
    (o_fwd (given ops) <> None <-> existsb is_fwd ops = true) /\
    (o_bwd (given ops) <> None <-> existsb (fun p => negb (is_fwd p)) ops = true) /\
    o_wrapped (given ops) = existsb is_fwd ops && existsb (fun p => negb (is_fwd p)) ops.
  Proof.
    induction ops as [|p ops IH] using rev_ind.
    - cbn. repeat split; try congruence.
    - unfold given in *. rewrite fold_left_app, !existsb_app. cbn [fold_left existsb].
      destruct IH as (H1 & H2 & H3). set (o := fold_left apply_op ops vjp_new) in *.
      destruct p as [f|b]; cbn [apply_op def_fwd def_bwd o_fwd o_bwd o_wrapped is_fwd negb]; rewrite !orb_false_r, ?orb_true_r.
      + split; [split; congruence|]. split; [exact H2|].
        destruct (o_bwd o) as [b|].
        * assert (E : existsb (fun p => negb (is_fwd p)) ops = true) by (apply H2; congruence). rewrite E. reflexivity.
        * rewrite H3. destruct (existsb (fun p => negb (is_fwd p)) ops); [exfalso; apply (proj2 H2); auto|].
          rewrite andb_false_r. reflexivity.
      + split; [exact H1|]. split; [split; congruence|].
        destruct (o_fwd o) as [f|].
        * assert (E : existsb is_fwd ops = true) by (apply H1; congruence). rewrite E. reflexivity.
        * rewrite H3. destruct (existsb is_fwd ops); [exfalso; apply (proj2 H1); auto|]. reflexivity.
  Qed.
  Theorem C66_defined : forall ops fn v args kwargs,
    existsb is_fwd ops && existsb (fun p => negb (is_fwd p)) ops = false ->
    custom_vjp_call is_arr inexact (given ops) fn v args kwargs = Err RuntimeError /\
    forall v args kwargs, custom_vjp_vjp is_arr inexact jax_type (given ops) v args kwargs = Err RuntimeError.
  Proof.
    intros ops fn v args kwargs H. destruct (given_spec ops) as (_ & _ & E). rewrite H in E.
    unfold custom_vjp_call, custom_vjp_vjp. rewrite E. split; reflexivity.
  Qed.

  Lemma join3 (x : T) (f1 f2 f3 : L -> T) :
    (forall a, small (f1 a)) -> (forall a, combine_args [f1 a; f2 a; f3 a] = Leaf a) ->
    eqx_combine no_leaf [lw f1 x; lw f2 x; lw f3 x] = Ok x.
  Proof.
    intros Hs H. pose proof (combine_lw f1 [f2; f3] x Hs) as E. cbn [map] in E. rewrite E. f_equal.
    rewrite <- (lw_id x) at 2. apply lw_ext. exact H.
  Qed.
  Lemma split_join (x : T) : exists o, split_out is_arr inexact x = Ok o /\ join_out o = Ok x.
  Proof.
    unfold split_out. rewrite partition_lw. cbn [bind]. rewrite partition_lw. cbn [bind].
    eexists. split; [reflexivity|]. cbn [join_out]. rewrite !lw_lw. apply join3.
    - intros a. destruct (is_arr a); simpl; [destruct (inexact a); exact I|exact I].
    - intros a. destruct (is_arr a); simpl; [destruct (inexact a); reflexivity|reflexivity].
  Qed.

  (** Not differentiated, the function is transparent. *)
  Theorem C66_call : forall ops fn v args kwargs,
    existsb is_fwd ops && existsb (fun p => negb (is_fwd p)) ops = true ->
    custom_vjp_call is_arr inexact (given ops) fn v args kwargs = fn v args kwargs.
  Proof.
    intros ops fn v args kwargs H. destruct (given_spec ops) as (_ & _ & E). rewrite H in E.
    unfold custom_vjp_call. rewrite E. cbn [negb]. rewrite partition_lw. cbn [bind]. rewrite partition_lw. cbn [bind].
    rewrite partition_lw. cbn [bind]. unfold vjp_fn_wrapped. rewrite !lw_lw.
    rewrite join3.
    2: { intros a. destruct (is_arr a); exact I. }
    2: { intros a. destruct (is_arr a); simpl; [destruct (inexact a); reflexivity|reflexivity]. }
    cbn [bind]. rewrite join2'. cbn [bind split2].
    destruct (fn v args kwargs) as [out|e]; [|reflexivity]. cbn [bind].
    destruct (split_join out) as (o & -> & Ho). exact Ho.
  Qed.

  (** The rules in force are the ones given last. *)
  Theorem C66_last : forall ops,
    o_fwd (given ops) = match find is_fwd (rev ops) with Some (OFwd f) => Some f | _ => None end /\
    o_bwd (given ops) = match find (fun p => negb (is_fwd p)) (rev ops) with Some (OBwd b) => Some b | _ => None end.
  Proof.
    intros ops. induction ops as [|p ops IH] using rev_ind; [split; reflexivity|].
    unfold given in *. rewrite fold_left_app, rev_unit. cbn [fold_left find].
    destruct IH as [H1 H2]. destruct p as [f|b]; cbn; auto.
  Qed.

  (** Differentiated. *)
  Notation PP := (L * bool)%type.
  Definition flags (z : tree PP) : tree bool := lw (fun p => Leaf (snd p)) z.
  (** JAX perturbs inexact arrays only. *)
  Definition jax_flags (z : tree PP) : Prop := forall a, In (a, true) (labels z) -> inexact a = true.
  Definition unperturbed (z : tree PP) : Prop := forall p, In p (labels z) -> snd p = false.

  Lemma flagged_none (t : tree PP) (f : PP -> tree PP) :
    (forall p, In p (labels t) -> forall q, In q (labels (f p)) -> snd q = false) ->
    existsb (fun s => match s with Leaf p => snd p | _ => false end) (leaves no_leaf (lw f t)) = false.
  Proof.
    intros H. rewrite leaves_labels, labels_lw.
    destruct (existsb _ _) eqn:E; [|reflexivity]. apply existsb_exists in E as (s & Hs & E).
    apply in_map_iff in Hs as (q & <- & Hq). apply in_flat_map in Hq as (p & Hp & Hq).
    rewrite (H p Hp q Hq) in E. discriminate.
  Qed.
  Lemma values_lw (t : tree PP) : values t = vals t.
  Proof. unfold values. rewrite tmap_lw. reflexivity. Qed.

  (** A perturbed array among the other arguments is refused. *)
  Theorem C66_args_perturbed : forall ops v args kwargs p,
    existsb is_fwd ops && existsb (fun p => negb (is_fwd p)) ops = true ->
    In p (labels args ++ labels kwargs) -> snd p = true -> is_arr (fst p) = true ->
    custom_vjp_vjp is_arr inexact jax_type (given ops) v args kwargs = Err RuntimeError.
  Proof.
    intros ops v args kwargs p H Hp Hs Ha. destruct (given_spec ops) as (_ & _ & E). rewrite H in E.
    unfold custom_vjp_vjp. rewrite E. cbn [negb]. rewrite partition_lw. cbn [bind]. rewrite partition_lw. cbn [bind].
    rewrite partition_lw. cbn [bind].
    match goal with |- (if ?x then _ else _) = _ => assert (Ex : x = true) end.
    { apply existsb_exists. exists (Leaf p). split; [|exact Hs]. rewrite leaves_labels, labels_lw.
      apply in_map. apply in_flat_map. exists p. split.
      - cbn [labels map concat]. rewrite app_nil_r. exact Hp.
      - rewrite Ha. left. reflexivity. }
    rewrite Ex. reflexivity.
  Qed.

  (** The forward rule gets, besides the arguments as the caller passed them, a tree of booleans with the structure of
      the first argument, telling for every leaf whether it is perturbed. What it returns is the output of the
      call. The backward rule gets the residuals, the nonzero cotangents of inexact arrays, and the same
      booleans and arguments. The gradients it returns for inexact arrays are passed on, [None] meaning zero; a
      different structure is a [RuntimeError], and a gradient for anything else is refused by JAX. *)
  Theorem C66_rules : forall ops (fwd : forward) (bwd : backward) (v args kwargs : tree PP),
    o_fwd (given ops) = Some fwd -> o_bwd (given ops) = Some bwd ->
    jax_flags v -> unperturbed args -> unperturbed kwargs ->
    (forall a, inexact a = true -> jax_type a = true) ->
    let call := custom_vjp_vjp is_arr inexact jax_type (given ops) v args kwargs in
    (forall e, fwd (flags v) (vals v) (vals args) (vals kwargs) = Err e -> call = Err e) /\
    (forall out residuals, fwd (flags v) (vals v) (vals args) (vals kwargs) = Ok (out, residuals) ->
       exists pull, call = Ok (out, pull) /\
       forall w : tree D, vals w = out ->
         let r := bwd residuals (seen inexact w) (flags v) (vals v) (vals args) (vals kwargs) in
         (forall e, r = Err e -> pull (passed inexact w) = Err e) /\
         (forall g, r = Ok g -> treedef is_none g <> treedef is_none (vals v) ->
            pull (passed inexact w) = Err RuntimeError) /\
         (forall y : tree D, vals y = vals v -> r = Ok (lw (fun p => opt (snd p)) y) ->
            (forall a t, In (a, Some t) (labels y) -> inexact a = true) ->
            pull (passed inexact w) = Ok (passed inexact y)) /\
         (forall y : tree D, vals y = vals v -> r = Ok (lw (fun p => opt (snd p)) y) ->
            (exists a t, In (a, Some t) (labels y) /\ inexact a = false) ->
            pull (passed inexact w) = Err TypeError)).
  Proof.
    intros ops fwd bwd v args kwargs Hf Hb Hv Hargs Hkw Hjt call.
    assert (Hw : o_wrapped (given ops) = true).
    { destruct (given_spec ops) as (E1 & E2 & ->). rewrite (proj1 E1), (proj1 E2) by congruence. reflexivity. }
    assert (Hak : forall p, In p (labels (Node 0 [args; kwargs])) -> snd p = false).
    { intros p Hp. cbn [labels map concat] in Hp. rewrite app_nil_r in Hp. apply in_app_or in Hp as [Hp|Hp]; auto. }
    set (nonarr := lw (fun p : PP => if is_arr (fst p) then TNone else Leaf p) v).
    set (diff := lw (fun p : PP => if is_arr (fst p) then if inexact (fst p) then Leaf p else TNone else TNone) v).
    set (nondiff := lw (fun p : PP => if is_arr (fst p) then if inexact (fst p) then TNone else Leaf p else TNone) v).
    set (nonarr_ak := lw (fun p : PP => if is_arr (fst p) then TNone else Leaf p) (Node 0 [args; kwargs])).
    set (arr_ak := lw (fun p : PP => if is_arr (fst p) then Leaf p else TNone) (Node 0 [args; kwargs])).
    assert (Hcall : call = ('(out, s) <- fwd_wrapped is_arr inexact fwd nonarr nonarr_ak diff nondiff arr_ak ;;
                            out <- join_out out ;;
                            Ok (out, bwd_wrapped jax_type bwd (values nonarr) (values nonarr_ak) s))).
    { unfold call, custom_vjp_vjp. rewrite Hw. cbn [negb]. rewrite partition_lw. cbn [bind]. rewrite partition_lw. cbn [bind].
      rewrite partition_lw. cbn [bind]. rewrite flagged_none.
      2: { intros p Hp q Hq. destruct (is_arr (fst p)); simpl in Hq; [destruct Hq as [<-|[]]; auto|contradiction]. }
      rewrite Hf, Hb. rewrite !lw_lw.
      match goal with |- context [fwd_wrapped _ _ _ _ _ ?x ?y _] =>
        assert (E1 : x = diff) by (apply lw_ext; intros p; destruct (is_arr (fst p)); reflexivity);
        assert (E2 : y = nondiff) by (apply lw_ext; intros p; destruct (is_arr (fst p)); reflexivity) end.
      rewrite E1, E2. reflexivity. }
    assert (Hpert : eqx_combine no_leaf [all_false nonarr; all_false nondiff; get_perturbed diff] = Ok (flags v)).
    { unfold all_false, get_perturbed, nonarr, nondiff, diff. rewrite !tmap_lw, !lw_lw.
      match goal with |- eqx_combine _ [lw ?f v; lw ?g v; lw ?h v] = _ =>
        pose proof (combine_lw f [g; h] v) as E end.
      cbn [map] in E. rewrite E.
      2: { intros p. destruct (is_arr (fst p)); exact I. }
      f_equal. apply lw_ext_in. intros [a b] Hp. cbn [fst snd]. destruct b.
      - pose proof (Hv a Hp) as Hi. rewrite (inexact_arr a Hi), Hi. reflexivity.
      - destruct (is_arr a); [destruct (inexact a)|]; reflexivity. }
    assert (Hnd : get_unperturbed nondiff = Ok (vals nondiff)).
    { unfold get_unperturbed. unfold nondiff at 1. rewrite flagged_none.
      2: { intros [a b] Hp q Hq. cbn [fst] in Hq. destruct (is_arr a); [|contradiction].
           destruct (inexact a) eqn:Hi; [contradiction|]. simpl in Hq. destruct Hq as [<-|[]]. simpl.
           destruct b; [rewrite (Hv a Hp) in Hi; discriminate|reflexivity]. }
      rewrite values_lw. reflexivity. }
    assert (Hna : get_unperturbed arr_ak = Ok (vals arr_ak)).
    { unfold get_unperturbed. unfold arr_ak at 1. rewrite flagged_none.
      2: { intros p Hp q Hq. destruct (is_arr (fst p)); simpl in Hq; [destruct Hq as [<-|[]]; auto|contradiction]. }
      rewrite values_lw. reflexivity. }
    assert (Hvv : eqx_combine no_leaf [vals nonarr; vals diff; vals nondiff] = Ok (vals v)).
    { unfold vals, nonarr, diff, nondiff. rewrite !lw_lw.
      match goal with |- eqx_combine _ [lw ?f v; lw ?g v; lw ?h v] = _ => pose proof (combine_lw f [g; h] v) as E end.
      cbn [map] in E. rewrite E.
      2: { intros p. destruct (is_arr (fst p)); exact I. }
      f_equal. apply lw_ext. intros p. destruct (is_arr (fst p)); [destruct (inexact (fst p))|]; reflexivity. }
    assert (Hvk : eqx_combine no_leaf [vals nonarr_ak; vals arr_ak] = Ok (Node 0 [vals args; vals kwargs])).
    { unfold vals, nonarr_ak, arr_ak. rewrite !lw_lw.
      match goal with |- eqx_combine _ [lw ?f ?v; lw ?g ?v] = _ => pose proof (combine_lw f [g] v) as E end.
      cbn [map] in E. rewrite E.
      2: { intros p. destruct (is_arr (fst p)); exact I. }
      f_equal. match goal with |- _ = ?r => change r with (lw (fun p : PP => Leaf (fst p)) (Node 0 [args; kwargs])) end.
      apply lw_ext. intros p. destruct (is_arr (fst p)); reflexivity. }
    assert (Hfw : fwd_wrapped is_arr inexact fwd nonarr nonarr_ak diff nondiff arr_ak =
      ('(out, residuals) <- fwd (flags v) (vals v) (vals args) (vals kwargs) ;;
       '(array_res, nonarray_res) <- eqx_partition no_leaf TNone residuals (Leaf (SCall (on_leaf is_arr))) ;;
       out <- split_out is_arr inexact out ;;
       Ok (out, {| s_array_res := array_res; s_nonarray_res := nonarray_res; s_diff := vals diff; s_nondiff := vals nondiff;
                   s_array_ak := vals arr_ak; s_perturbed := flags v |}))).
    { unfold fwd_wrapped. rewrite Hpert. cbn [bind]. rewrite Hnd, Hna. cbn [bind]. rewrite !values_lw, Hvv. cbn [bind].
      rewrite Hvk. reflexivity. }
    split.
    - intros e He. rewrite Hcall, Hfw, He. reflexivity.
    - intros out residuals Hok. rewrite Hok in Hfw. cbn [bind] in Hfw. rewrite partition_lw in Hfw. cbn [bind] in Hfw.
      destruct (split_join out) as (o & Ho & Hj). rewrite Ho in Hfw. cbn [bind] in Hfw.
      rewrite Hcall, Hfw. cbn [bind]. rewrite Hj. cbn [bind].
      eexists. split; [reflexivity|]. clear Hcall call Hfw Hok Ho Hj o Hpert Hnd Hna.
      intros w Hwo. set (r := bwd residuals (seen inexact w) (flags v) (vals v) (vals args) (vals kwargs)).
      assert (Hb1 : forall s, s = {| s_array_res := lw (fun a => if is_arr a then Leaf a else TNone) residuals;
                       s_nonarray_res := lw (fun a => if is_arr a then TNone else Leaf a) residuals;
                       s_diff := vals diff; s_nondiff := vals nondiff; s_array_ak := vals arr_ak; s_perturbed := flags v |} ->
        bwd_wrapped jax_type bwd (values nonarr) (values nonarr_ak) s (passed inexact w) =
        (g <- r ;;
         if negb (tdef_eqb (treedef is_none g) (treedef is_none (vals diff))) then Err RuntimeError else
         g <- tmap2 is_none (none_to_zero jax_type) g (vals diff) ;;
         if tdef_eqb (treedef no_leaf g) (treedef no_leaf (vals diff)) then Ok g else Err TypeError)).
      { intros s ->. unfold bwd_wrapped. cbn [s_array_res s_nonarray_res s_diff s_nondiff s_array_ak s_perturbed].
        rewrite join2. cbn [bind]. rewrite !values_lw, Hvv. cbn [bind]. rewrite Hvk. cbn [bind split2].
        assert (Hg : zero_to_none (passed inexact w) = seen inexact w).
        { unfold zero_to_none, passed, seen. rewrite tmap_lw, lw_lw. apply lw_ext. intros [a t]. cbn [fst snd].
          destruct (inexact a); [|reflexivity]. destruct t; reflexivity. }
        rewrite Hg. reflexivity. }
      rewrite (Hb1 _ eq_refl). clear Hb1.
      assert (Hd : treedef is_none (vals diff) = treedef is_none (vals v)).
      { unfold vals, diff. rewrite lw_lw. apply treedef_lw; auto. intros p _.
        destruct (is_arr (fst p)); [destruct (inexact (fst p))|]; reflexivity. }
      split; [intros e ->; reflexivity|]. split; [|split].
      + intros g -> Hne. cbn [bind]. destruct (tdef_eqb _ _) eqn:E; [|reflexivity].
        apply tdef_eqb_spec in E. rewrite Hd in E. contradiction.
      + intros y Hy Hr Hin. rewrite Hr. cbn [bind].
        assert (Ediff : vals diff = lw (fun p => if inexact (fst p) then Leaf (fst p) else TNone) y).
        { transitivity (lw (fun a => if inexact a then Leaf a else TNone) (vals v)).
          - unfold vals, diff. rewrite !lw_lw. apply lw_ext. intros p. cbn [lw].
            destruct (inexact (fst p)) eqn:Hi; [rewrite (inexact_arr _ Hi); reflexivity|].
            destruct (is_arr (fst p)); reflexivity.
          - rewrite <- Hy. unfold vals. rewrite lw_lw. reflexivity. }
        rewrite Ediff.
        assert (E1 : tdef_eqb (treedef is_none (lw (fun p : D => opt (snd p)) y))
                       (treedef is_none (lw (fun p : D => if inexact (fst p) then Leaf (fst p) else TNone) y)) = true).
        { apply tdef_eqb_spec. apply treedef_lw; auto. intros [a t] _. cbn [fst snd].
          destruct t, (inexact a); reflexivity. }
        rewrite E1. cbn [negb].
        assert (E2 : tmap2 is_none (none_to_zero jax_type) (lw (fun p : D => opt (snd p)) y)
                       (lw (fun p : D => if inexact (fst p) then Leaf (fst p) else TNone) y) = Ok (passed inexact y)).
        { unfold passed. apply tmap2_lw_none; [reflexivity|]. intros [a t] Hp. cbn [fst snd]. destruct t as [t|]; simpl.
          - split; [exact I|]. rewrite (Hin a t Hp). reflexivity.
          - split; [exact I|]. destruct (inexact a) eqn:Hi; [|reflexivity]. rewrite (Hjt a Hi). reflexivity. }
        rewrite E2. cbn [bind].
        assert (E3 : tdef_eqb (treedef no_leaf (passed inexact y))
                       (treedef no_leaf (lw (fun p : D => if inexact (fst p) then Leaf (fst p) else TNone) y)) = true).
        { apply tdef_eqb_spec. unfold passed. apply treedef_lw; auto. intros [a t] _. cbn [fst snd].
          destruct (inexact a); reflexivity. }
        rewrite E3. reflexivity.
      + intros y Hy Hr (a & t & Hat & Ha). rewrite Hr. cbn [bind].
        assert (Ediff : vals diff = lw (fun p => if inexact (fst p) then Leaf (fst p) else TNone) y).
        { transitivity (lw (fun a => if inexact a then Leaf a else TNone) (vals v)).
          - unfold vals, diff. rewrite !lw_lw. apply lw_ext. intros p. cbn [lw].
            destruct (inexact (fst p)) eqn:Hi; [rewrite (inexact_arr _ Hi); reflexivity|].
            destruct (is_arr (fst p)); reflexivity.
          - rewrite <- Hy. unfold vals. rewrite lw_lw. reflexivity. }
        rewrite Ediff.
        assert (E1 : tdef_eqb (treedef is_none (lw (fun p : D => opt (snd p)) y))
                       (treedef is_none (lw (fun p : D => if inexact (fst p) then Leaf (fst p) else TNone) y)) = true).
        { apply tdef_eqb_spec. apply treedef_lw; auto. intros [a' t'] _. cbn [fst snd].
          destruct t', (inexact a'); reflexivity. }
        rewrite E1. cbn [negb].
        set (h := fun p : D => match snd p with Some t => Leaf (Some t) | None => if inexact (fst p) then Leaf None else TNone end).
        assert (E2 : tmap2 is_none (none_to_zero jax_type) (lw (fun p : D => opt (snd p)) y)
                       (lw (fun p : D => if inexact (fst p) then Leaf (fst p) else TNone) y) = Ok (lw h y)).
        { apply tmap2_lw_none; [reflexivity|]. intros [a' t'] Hp. unfold h. cbn [fst snd]. destruct t' as [t'|]; simpl.
          - auto.
          - split; [exact I|]. destruct (inexact a') eqn:Hi; [|reflexivity]. rewrite (Hjt a' Hi). reflexivity. }
        rewrite E2. cbn [bind].
        clear E1. match goal with |- (if ?x then _ else _) = _ => destruct x eqn:E3 end; [|reflexivity]. exfalso. apply tdef_eqb_spec in E3.
        apply (treedef_lw_inv _ _ _ E3) in Hat. unfold h in Hat. cbn [fst snd] in Hat. rewrite Ha in Hat. discriminate.
  Qed.

  (** With the deprecated [defvjp] every inexact array of the output has a cotangent: zeros if there is none. *)
  Theorem C66_legacy : forall zeros_like (fwd : T -> T -> T -> res (T * T)) (bwd : T -> T -> T -> T -> T -> res T) pert v args kwargs,
    (forall e, fwd v args kwargs = Err e -> legacy_fwd fwd pert v args kwargs = Err e) /\
    (forall (w : tree D) residuals, fwd v args kwargs = Ok (vals w, residuals) ->
       exists r, legacy_fwd fwd pert v args kwargs = Ok (vals w, r) /\
       legacy_bwd inexact zeros_like bwd r (seen inexact w) pert v args kwargs =
       bwd residuals
         (lw (fun p => if inexact (fst p) then Leaf (match snd p with Some v => v | None => zeros_like (fst p) end) else TNone) w)
         v args kwargs).
  Proof.
    intros zl fwd bwd pert v args kwargs. unfold legacy_fwd. split; [intros e ->; reflexivity|].
    intros w residuals ->. eexists. split; [reflexivity|]. unfold legacy_bwd. cbn [split2 bind].
    match goal with |- _ = bwd _ ?t _ _ _ => assert (E : tmap2 no_leaf (materialise inexact zl) (vals w) (seen inexact w) = Ok t) end.
    { unfold vals, seen. apply tmap2_lw. intros [a t] _. cbn [fst snd]. destruct (inexact a) eqn:Ha; [|unfold materialise; rewrite Ha; reflexivity].
      destruct t as [v'|]; unfold materialise; cbn [opt]; rewrite ?Ha; reflexivity. }
    rewrite E. reflexivity.
  Qed.
End Props.

(** ** Examples: numbers below 10 are not arrays, below 20 integer arrays, and above inexact arrays. *)
Definition ex_arr (n : nat) : bool := 10 <=? n.
Definition ex_inexact (n : nat) : bool := 20 <=? n.
Definition ex_rule (args t_args kwargs : tree nat) : res (tree nat * tree nat) := Ok (args, t_args).

(** An integer array and a Python number have no tangents, even if JAX passes one. *)
Example C65_ex_rule :
  let z := Node 1 [Leaf (3, None); Leaf (12, Some 7); Leaf (21, Some 8); Leaf (22, None)] in
  seen ex_inexact z = Node 1 [TNone; TNone; Leaf 8; TNone] /\
  custom_jvp_jvp ex_arr ex_inexact ex_arr (fun a t _ => Ok (Node 0 [Leaf 21; Leaf 22], Node 0 [Leaf 8; TNone]))
    (vals z) (Node 2 []) (Node 0 [passed ex_arr z; Node 2 []]) = Ok (Node 0 [Leaf 21; Leaf 22], Node 0 [Leaf (Some 8); Leaf None]).
Proof. split; reflexivity. Qed.
Example C65_ex_call : custom_jvp_call ex_arr (fun a k => Ok (Node 5 [k; a])) (Node 1 [Leaf 3; Leaf 12]) (Node 2 [Leaf 25])
  = Ok (Node 5 [Node 2 [Leaf 25]; Node 1 [Leaf 3; Leaf 12]]).
Proof. reflexivity. Qed.
Example C65_ex_keyword : let zk := Node 2 [Leaf (25, Some 1)] in
  custom_jvp_jvp ex_arr ex_inexact ex_arr ex_rule (Node 1 []) (vals zk) (Node 0 [Node 1 []; passed ex_arr zk]) = Err ValueError.
Proof. reflexivity. Qed.
(** A tangent of the wrong structure is refused. *)
Example C65_ex_structure :
  custom_jvp_jvp ex_arr ex_inexact ex_arr (fun _ _ _ => Ok (Leaf 21, Node 0 [])) (Node 1 []) (Node 2 []) (Node 0 [Node 1 []; Node 2 []])
  = Err ValueError.
Proof. reflexivity. Qed.
Example C65_ex_legacy :
  let z := Node 1 [Leaf (12, None); Leaf (21, Some 8); Leaf (22, None)] in
  legacy_rule ex_inexact (fun _ => 20) ex_rule (vals z) (seen ex_inexact z) (Node 2 [])
  = Ok (vals z, Node 1 [TNone; Leaf 8; Leaf 20]).
Proof. reflexivity. Qed.

Definition ex_fwd : @forward nat := fun pert v args kwargs => Ok (Node 7 [v; args], Node 8 [Leaf 30; Leaf 4]).
(** Half of the gradient for perturbed leaves. *)
Definition ex_bwd : @backward nat := fun residuals g pert v args kwargs =>
  match residuals, g, pert, v with
  | Node 8 [Leaf 30; Leaf 4], Node 7 [Node 1 [_; _; Leaf g; _]; _], Node 1 [_; _; Leaf true; Leaf false], _ =>
      Ok (Node 1 [TNone; TNone; Leaf (Nat.div g 2); TNone])
  | _, _, _, _ => Err AssertionError
  end.
Example C66_ex_rules :
  let v := Node 1 [Leaf (3, false); Leaf (12, false); Leaf (21, true); Leaf (22, false)] in
  let w := Node 7 [Node 1 [Leaf (3, None); Leaf (12, None); Leaf (21, Some 40); Leaf (22, None)]; Node 1 [Leaf (15, None)]] in
  exists pull,
    custom_vjp_vjp ex_arr ex_inexact ex_arr (given [OBwd ex_bwd; OFwd ex_fwd]) v (Node 1 [Leaf (15, false)]) (Node 2 []) =
      Ok (vals w, pull) /\
    pull (passed ex_inexact w) = Ok (Node 1 [TNone; TNone; Leaf (Some 20); Leaf None]).
Proof. eexists. split; reflexivity. Qed.
Example C66_ex_order :
  existsb (@is_fwd nat) [OBwd ex_bwd; OBwd ex_bwd] && existsb (fun p => negb (is_fwd p)) [OBwd ex_bwd; OBwd ex_bwd] = false /\
  custom_vjp_call ex_arr ex_inexact (given [OBwd ex_bwd; OBwd ex_bwd]) (fun v _ _ => Ok v) (Leaf 21) (Node 1 []) (Node 2 []) = Err RuntimeError /\
  custom_vjp_call ex_arr ex_inexact (given [OBwd ex_bwd; OFwd ex_fwd]) (fun v _ _ => Ok v) (Leaf 21) (Node 1 []) (Node 2 []) = Ok (Leaf 21).
Proof. repeat split. Qed.
Example C66_ex_args_perturbed :
  custom_vjp_vjp ex_arr ex_inexact ex_arr (given [OBwd ex_bwd; OFwd ex_fwd]) (Leaf (21, true)) (Node 1 [Leaf (25, true)]) (Node 2 [])
  = Err RuntimeError.
Proof. reflexivity. Qed.
(** Gradients of the wrong structure, and for an integer array. *)
Example C66_ex_bad_gradients :
  let call (g : tree nat) := custom_vjp_vjp ex_arr ex_inexact ex_arr
       (given [OFwd (fun _ v _ _ => Ok (Leaf 23, TNone)); OBwd (fun _ _ _ _ _ _ => Ok g)])
       (Node 1 [Leaf (12, false); Leaf (21, true)]) (Node 1 []) (Node 2 []) in
  let r g := '(_, pull) <- call g ;; pull (Leaf (Some 24)) in
  r (Leaf 25) = Err RuntimeError /\ r (Node 1 [Leaf 12; Leaf 25]) = Err TypeError /\
  r (Node 1 [TNone; Leaf 25]) = Ok (Node 1 [TNone; Leaf (Some 25)]).
Proof. repeat split. Qed.
Example C66_ex_legacy :
  let w := Node 7 [Leaf (12, None); Leaf (21, Some 8); Leaf (22, None)] in
  exists r, legacy_fwd (fun v _ _ => Ok (vals w, Leaf 30)) (Node 1 []) (Node 1 []) (Node 1 []) (Node 2 []) = Ok (vals w, r) /\
  legacy_bwd ex_inexact (fun _ => 20) (fun res g _ _ _ => Ok (Node 9 [res; g])) r (seen ex_inexact w) (Node 1 []) (Node 1 []) (Node 1 []) (Node 2 [])
  = Ok (Node 9 [Leaf 30; Node 7 [TNone; Leaf 8; Leaf 20]]).
Proof. eexists. split; reflexivity. Qed.

Print Assumptions C65_call.
Print Assumptions C65_rule.
Print Assumptions C65_keyword_tangent.
Print Assumptions C65_structure.
Print Assumptions C65_legacy.
Print Assumptions C66_defined.
Print Assumptions C66_last.
Print Assumptions C66_call.
Print Assumptions C66_args_perturbed.
Print Assumptions C66_rules.
Print Assumptions C66_legacy.
