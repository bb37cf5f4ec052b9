(** C67: closure conversion and tracing to a jaxpr. C68: shape evaluation and checkpointing. *)
From Verif Require Import Filters_Proofs Closure_Proofs.

Section Props.
  Context {L S : Type}.
  Variables is_arr is_sds : L -> bool.
  Variable struct : L -> S.
  Variable sds : S -> L.
  Variable strip : S -> S.
  Variable leq : L -> L -> bool.
  Notation T := (tree L).
  Variable trace : @flat_fn L -> list S -> res (@jaxpr L * list S * @pydata L).
  Notation is_struct := (is_struct is_arr is_sds).

  (** JAX: if tracing succeeds then on all arrays of these abstract values the function returns the same Python
      data, the jaxpr computes its arrays, and their abstract values are the ones found by tracing. *)
  Definition tracing := forall F ss jx os data, trace F ss = Ok (jx, os, data) ->
    forall ws, forallb is_arr ws = true -> map struct ws = ss ->
    exists outs, F ws = Ok (outs, data) /\ jx ws = Ok outs /\ map struct outs = os.
  Hypothesis TRACE : tracing.
  Hypothesis leq_sds : forall s s', leq (sds s) (sds s') = true <-> s = s'.
  Hypothesis sds_kind : forall s, is_sds (sds s) = true /\ is_arr (sds s) = false /\ struct (sds s) = s.
  Hypothesis kinds : forall a, is_sds a = true -> is_arr a = false.
  Hypothesis strip_strip : forall s, strip (strip s) = strip s.

  (** ** Vocabulary *)
  (** Pairs of an example argument and an argument of a call. *)
  Notation D := (L * L)%type.
  Definition example (z : tree D) : T := lw (fun p => Leaf (fst p)) z.
  Definition actual (z : tree D) : T := lw (fun p => Leaf (snd p)) z.
  (** The arguments of the call, with the example's leaves where they are not arrays. *)
  Definition mixed (z : tree D) : T := lw (fun p => Leaf (if is_struct (fst p) then snd p else fst p)) z.
  Definition fits (ok : S -> S -> Prop) (p : D) : Prop :=
    if is_struct (fst p) then is_arr (snd p) = true /\ ok (struct (fst p)) (struct (snd p))
    else is_arr (snd p) = false /\ leq (snd p) (fst p) = true.
  Definition same (s s' : S) : Prop := s = s'.
  Definition same_stripped (s s' : S) : Prop := strip s = strip s'.
  Definition all_fit (ok : S -> S -> Prop) (z : tree D) : Prop := forall p, In p (labels z) -> fits ok p.

  Notation dyn z := (lw (fun p : D => if is_struct (fst p) then Leaf (snd p) else TNone) z).
  Lemma unflatten_dyn_of z :
    unflatten (treedef no_leaf (lw (fun a => if is_struct a then Leaf a else TNone) (example z))) (map Leaf (labels (dyn z))) = Ok (dyn z).
  Proof.
    apply unflatten_other. unfold example. rewrite lw_lw. apply treedef_lw; auto.
    intros p _. cbn [lw]. destruct (is_struct (fst p)); reflexivity.
  Qed.
  Lemma combine_dyn z :
    eqx_combine no_leaf [dyn z; lw (fun a => if is_struct a then TNone else Leaf a) (example z)] = Ok (mixed z).
  Proof.
    unfold example, mixed. rewrite lw_lw.
    match goal with |- eqx_combine _ [lw ?f z; lw ?g z] = _ => pose proof (combine_lw f [g] z) as E end.
    cbn [map] in E. rewrite E.
    - f_equal. apply lw_ext. intros p. cbn [lw]. destruct (is_struct (fst p)); reflexivity.
    - intros p. destruct (is_struct (fst p)); exact I.
  Qed.
  Lemma combine_dyn' z :
    eqx_combine no_leaf [lw (fun a => if is_struct a then TNone else Leaf a) (example z); dyn z] = Ok (mixed z).
  Proof.
    unfold example, mixed. rewrite lw_lw.
    match goal with |- eqx_combine _ [lw ?f z; lw ?g z] = _ => pose proof (combine_lw f [g] z) as E end.
    cbn [map] in E. rewrite E.
    - f_equal. apply lw_ext. intros p. cbn [lw]. destruct (is_struct (fst p)); reflexivity.
    - intros p. cbn [lw]. destruct (is_struct (fst p)); exact I.
  Qed.
  Lemma dyn_arrays ok z : all_fit ok z -> forallb is_arr (labels (dyn z)) = true.
  Proof.
    intros H. apply forallb_forall. intros a Ha. rewrite labels_lw in Ha. apply in_flat_map in Ha as (p & Hp & Ha).
    specialize (H p Hp). unfold fits in H. destruct (is_struct (fst p)); [|contradiction]. destruct Ha as [<-|[]]. tauto.
  Qed.
  Lemma dyn_structs z : all_fit same z ->
    map struct (labels (dyn z)) = map struct (labels (lw (fun a => if is_struct a then Leaf a else TNone) (example z))).
  Proof.
    intros H. unfold example. rewrite lw_lw, !labels_lw. revert H. unfold all_fit.
    induction (labels z) as [|p l IH]; simpl; intros H; [reflexivity|].
    rewrite !map_app, IH by auto. specialize (H p (or_introl eq_refl)). unfold fits in H.
    destruct (is_struct (fst p)); simpl; [|reflexivity]. destruct H as [_ H]. unfold same in H. rewrite H. reflexivity.
  Qed.
  Lemma dyn_actual ok z : all_fit ok z -> dyn z = lw (fun a => if is_arr a then Leaf a else TNone) (actual z).
  Proof.
    intros H. unfold actual. rewrite lw_lw. apply lw_ext_in. intros p Hp. specialize (H p Hp). unfold fits in H.
    cbn [lw]. destruct (is_struct (fst p)); destruct H as [-> _]; reflexivity.
  Qed.
  Lemma join_arr (g : L -> bool) (x : T) :
    eqx_combine no_leaf [lw (fun a => if g a then Leaf a else TNone) x; lw (fun a => if g a then TNone else Leaf a) x] = Ok x.
  Proof.
    pose proof (combine_lw (fun a => if g a then Leaf a else TNone) [fun a => if g a then TNone else Leaf a] x) as E.
    cbn [map] in E. rewrite E.
    - f_equal. rewrite <- (lw_id x) at 2. apply lw_ext. intros a. destruct (g a); reflexivity.
    - intros a. destruct (g a); exact I.
  Qed.

  (** ** C67 *)
  (** The jaxpr computes the arrays of the function's output; the other results are its output's structs and its
      non-arrays. For all arrays of the example's abstract values, and the example's non-arrays. *)
  Theorem C67_make_jaxpr : forall (fn : T -> T -> res T) (za zk : tree D) jx dynamic_out static_out,
    make_jaxpr is_arr is_sds struct sds trace fn (example za) (example zk) = Ok (jx, dynamic_out, static_out) ->
    all_fit same za -> all_fit same zk ->
    exists out, fn (mixed za) (mixed zk) = Ok out /\
      jx (List.filter is_arr (labels (actual za) ++ labels (actual zk))) = Ok (List.filter is_arr (labels out)) /\
      dynamic_out = lw (fun a => if is_arr a then Leaf (sds (struct a)) else TNone) out /\
      static_out = lw (fun a => if is_arr a then TNone else Leaf a) out.
  Proof.
    intros fn za zk jx dynamic_out static_out H Ha Hk. unfold make_jaxpr in H.
    set (z := Node 0 [za; zk]).
    assert (Hz : all_fit same z).
    { intros p Hp. unfold z in Hp. cbn [labels map concat] in Hp. rewrite app_nil_r in Hp. apply in_app_or in Hp as [Hp|Hp]; auto. }
    change (Node 0 [example za; example zk]) with (example z) in H. rewrite partition_lw in H. cbn [bind] in H.
    apply bind_ok in H as ([[jx' ss] [def so]] & Ht & H). apply bind_ok in H as (do & Hd & H). injection H as -> -> ->.
    destruct (TRACE _ _ _ _ _ Ht (labels (dyn z)) (dyn_arrays _ z Hz)) as (outs & HF & Hj & Hs).
    { rewrite flat_labels. apply dyn_structs, Hz. }
    unfold traced in HF. rewrite unflatten_dyn_of in HF. cbn [bind] in HF. rewrite combine_dyn in HF.
    change (mixed z) with (Node 0 [mixed za; mixed zk]) in HF. cbn [bind split2] in HF.
    apply bind_ok in HF as (out & Hout & HF). rewrite partition_lw in HF. cbn [bind] in HF. rewrite flat_labels in HF.
    injection HF as <- <- <-. exists out. split; [exact Hout|]. rewrite (dyn_actual _ z Hz) in Hj.
    rewrite !labels_filter in Hj. unfold actual at 1 in Hj. cbn [lw z map labels concat] in Hj. rewrite app_nil_r in Hj.
    split; [exact Hj|]. split; [|reflexivity].
    rewrite <- Hs, map_map in Hd. rewrite (unflatten_map (fun a => sds (struct a))) in Hd. injection Hd as <-.
    rewrite lw_lw. apply lw_ext. intros a. destruct (is_arr a); reflexivity.
  Qed.

  (** What the check of the arguments lets through. *)
  Lemma check_ok args kwargs z : all_fit same_stripped z -> actual z = Node 0 [args; kwargs] ->
    check_input is_arr struct sds strip leq
      (flatten (strip_weak struct sds strip (lw (fun a => if is_struct a then Leaf a else TNone) (example z))))
      (flatten (lw (fun a => if is_struct a then TNone else Leaf a) (example z))) args kwargs = Ok (dyn z).
  Proof.
    intros Hz E. unfold check_input. rewrite !unflatten_flatten'. cbn [bind]. rewrite <- E, partition_lw. cbn [bind].
    assert (E1 : tree_equal leq (strip_weak struct sds strip (lw (fun a => if is_arr a then Leaf a else TNone) (actual z)))
                   (strip_weak struct sds strip (lw (fun a => if is_struct a then Leaf a else TNone) (example z))) = true).
    { unfold strip_weak, actual, example. rewrite !tmap_lw, !lw_lw. apply tree_equal_lw.
      intros p Hp. specialize (Hz p Hp). unfold fits in Hz. cbn [lw]. destruct (is_struct (fst p)); destruct Hz as [-> Hz]; cbn [lw]; [|exact I].
      apply leq_sds. symmetry. exact Hz. }
    rewrite E1. cbn [negb].
    assert (E2 : tree_equal leq (lw (fun a => if is_arr a then TNone else Leaf a) (actual z))
                   (lw (fun a => if is_struct a then TNone else Leaf a) (example z)) = true).
    { unfold actual, example. rewrite !lw_lw. apply tree_equal_lw.
      intros p Hp. specialize (Hz p Hp). unfold fits in Hz. cbn [lw]. destruct (is_struct (fst p)); destruct Hz as [-> Hz]; [exact I|exact Hz]. }
    rewrite E2. cbn [negb]. rewrite <- (dyn_actual _ z Hz). reflexivity.
  Qed.

  (** A converted function called on arrays of the same abstract values, and on equal non-arrays, computes the
      function on these arrays and on the example's non-arrays. *)
  Theorem C67_call : forall (fn : T -> T -> res T) (za zk : tree D) c,
    closure_convert is_arr is_sds struct sds strip trace true fn (example za) (example zk) = Ok c ->
    all_fit same za -> all_fit same zk ->
    exists out, fn (mixed za) (mixed zk) = Ok out /\ call_converted is_arr struct sds strip leq c (actual za) (actual zk) = Ok out.
  Proof.
    intros fn za zk c H Ha Hk.
    set (z := Node 0 [za; zk]).
    assert (Hz : all_fit same z).
    { intros p Hp. unfold z in Hp. cbn [labels map concat] in Hp. rewrite app_nil_r in Hp. apply in_app_or in Hp as [Hp|Hp]; auto. }
    assert (Hz' : all_fit same_stripped z).
    { intros p Hp. specialize (Hz p Hp). unfold fits, same, same_stripped in *. destruct (is_struct (fst p)); [|exact Hz].
      destruct Hz as [H1 ->]. auto. }
    unfold closure_convert in H. change (Node 0 [example za; example zk]) with (example z) in H.
    rewrite partition_lw in H. cbn [bind negb] in H. apply bind_ok in H as ([[jx do] so] & Hj & H).
    match type of H with Ok ?x = Ok c => assert (Ec : c = x) by congruence end. clear H. subst c.
    destruct (C67_make_jaxpr fn za zk jx do so Hj Ha Hk) as (out & Hout & Hjx & -> & ->).
    exists out. split; [exact Hout|]. unfold call_converted. rewrite (check_ok (actual za) (actual zk) z); auto. cbn [bind].
    assert (E : flat (dyn z) = List.filter is_arr (labels (actual za) ++ labels (actual zk))).
    { rewrite flat_labels, (dyn_actual _ z Hz), labels_filter. unfold actual at 1. cbn [lw z map labels concat].
      rewrite app_nil_r. reflexivity. }
    rewrite E, Hjx. cbn [bind]. rewrite !unflatten_flatten'. cbn [bind].
    assert (E1 : same_structs struct sds strip leq (List.filter is_arr (labels out))
        (flat (lw (fun a => if is_arr a then Leaf (sds (struct a)) else TNone) out)) = true).
    { rewrite flat_labels, labels_lw. clear - leq_sds sds_kind. induction (labels out) as [|a l IH]; simpl; [reflexivity|].
      destruct (is_arr a); simpl; [|exact IH]. rewrite IH, andb_true_r. apply leq_sds.
      destruct (sds_kind (struct a)) as (_ & _ & ->). reflexivity. }
    rewrite E1. cbn [negb]. rewrite <- labels_filter.
    rewrite unflatten_other.
    2: { apply treedef_lw; auto. intros a _. destruct (is_arr a); reflexivity. }
    cbn [bind]. apply join_arr.
  Qed.

  (** A plain function without closure is called as it is. *)
  Theorem C67_trivial : forall (fn : T -> T -> res T) (za zk : tree D),
    all_fit same_stripped za -> all_fit same_stripped zk ->
    exists c, closure_convert is_arr is_sds struct sds strip trace false fn (example za) (example zk) = Ok c /\
      call_converted is_arr struct sds strip leq c (actual za) (actual zk) = fn (actual za) (actual zk).
  Proof.
    intros fn za zk Ha Hk. set (z := Node 0 [za; zk]).
    assert (Hz : all_fit same_stripped z).
    { intros p Hp. unfold z in Hp. cbn [labels map concat] in Hp. rewrite app_nil_r in Hp. apply in_app_or in Hp as [Hp|Hp]; auto. }
    unfold closure_convert. change (Node 0 [example za; example zk]) with (example z). rewrite partition_lw. cbn [bind negb].
    eexists. split; [reflexivity|]. unfold call_converted. rewrite (check_ok (actual za) (actual zk) z); auto.
  Qed.

  (** Any other call is refused: another structure, other abstract values, another non-array. *)
  Theorem C67_refused : forall b (fn : T -> T -> res T) ex_args ex_kwargs args kwargs c,
    closure_convert is_arr is_sds struct sds strip trace b fn ex_args ex_kwargs = Ok c ->
    ~ (exists za zk, example za = ex_args /\ example zk = ex_kwargs /\ actual za = args /\ actual zk = kwargs /\
                     all_fit same_stripped za /\ all_fit same_stripped zk) ->
    call_converted is_arr struct sds strip leq c args kwargs = Err ValueError.
  Proof.
    intros b fn ex_args ex_kwargs args kwargs c H Hno.
    assert (G : check_input is_arr struct sds strip leq
        (flatten (strip_weak struct sds strip (lw (fun a => if is_struct a then Leaf a else TNone) (Node 0 [ex_args; ex_kwargs]))))
        (flatten (lw (fun a => if is_struct a then TNone else Leaf a) (Node 0 [ex_args; ex_kwargs]))) args kwargs = Err ValueError).
    { unfold check_input. rewrite !unflatten_flatten'. cbn [bind]. rewrite partition_lw. cbn [bind].
      destruct (tree_equal leq (strip_weak _ _ _ _) _) eqn:E1; [|reflexivity].
      destruct (tree_equal leq (lw _ _) _) eqn:E2; [|reflexivity]. exfalso. apply Hno.
      unfold strip_weak in E1. rewrite !tmap_lw, !lw_lw in E1.
      assert (T1 : treedef no_leaf (lw (fun a => lw (fun a => Leaf (sds (strip (struct a)))) (if is_arr a then Leaf a else TNone)) (Node 0 [args; kwargs]))
                 = treedef no_leaf (lw (fun a => lw (fun a => Leaf (sds (strip (struct a)))) (if is_struct a then Leaf a else TNone)) (Node 0 [ex_args; ex_kwargs]))).
      { unfold tree_equal in E1. apply andb_prop in E1 as [E1 _]. apply tdef_eqb_spec in E1. exact E1. }
      assert (T2 : treedef no_leaf (lw (fun a => if is_arr a then TNone else Leaf a) (Node 0 [args; kwargs]))
                 = treedef no_leaf (lw (fun a => if is_struct a then TNone else Leaf a) (Node 0 [ex_args; ex_kwargs]))).
      { unfold tree_equal in E2. apply andb_prop in E2 as [E2 _]. apply tdef_eqb_spec in E2. exact E2. }
      assert (Z : exists z : tree D, lw (fun p => Leaf (fst p)) z = Node 0 [ex_args; ex_kwargs] /\ lw (fun p => Leaf (snd p)) z = Node 0 [args; kwargs]).
      { eapply zip_two; [| |exact (eq_sym T1)|exact (eq_sym T2)]; intros a; cbv beta.
        - destruct (is_struct a); cbn [lw]; [right|left]; split; try reflexivity; eexists; reflexivity.
        - destruct (is_arr a); cbn [lw]; [right|left]; split; try reflexivity; eexists; reflexivity. }
      destruct Z as (z & Z1 & Z2).
      rewrite <- Z1, <- Z2, !lw_lw in E1. rewrite <- Z1, <- Z2, !lw_lw in E2.
      assert (I1 := fun Hf Hg => tree_equal_lw_inv leq _ _ z Hf Hg E1).
      assert (I2 := fun Hf Hg => tree_equal_lw_inv leq _ _ z Hf Hg E2). cbn [lw] in I1, I2.
      assert (Hz : all_fit same_stripped z).
      { intros p Hp. unfold fits.
        assert (J1 := I1 (fun p => ltac:(destruct (is_arr (snd p)); exact I)) (fun p => ltac:(destruct (is_struct (fst p)); exact I)) p Hp).
        assert (J2 := I2 (fun p => ltac:(destruct (is_arr (snd p)); exact I)) (fun p => ltac:(destruct (is_struct (fst p)); exact I)) p Hp).
        destruct (is_struct (fst p)), (is_arr (snd p)); cbn [lw] in J1, J2; try contradiction.
        - split; [reflexivity|]. symmetry. apply leq_sds. exact J1.
        - split; [reflexivity|exact J2]. }
      destruct z as [p| |k [|za [|zk [|]]]]; try discriminate. cbn [lw map] in Z1, Z2.
      injection Z1 as -> <- <-. injection Z2 as <- <-. exists za, zk. repeat split; intros p Hp; apply Hz; cbn [labels map concat];
        rewrite app_nil_r; apply in_or_app; auto. }
    unfold closure_convert in H. rewrite partition_lw in H. cbn [bind] in H. destruct b; cbn [negb] in H.
    - apply bind_ok in H as ([[jx do] so] & _ & H). match type of H with Ok ?x = Ok c => assert (Ec : c = x) by congruence end. clear H. subst c. unfold call_converted. rewrite G. reflexivity.
    - match type of H with Ok ?x = Ok c => assert (Ec : c = x) by congruence end. clear H. subst c. unfold call_converted. rewrite G. reflexivity.
  Qed.

  (** [in_struct] is the example with structs for arrays; [out_struct] is the output with structs for arrays. *)
  Theorem C67_in_struct : forall b (fn : T -> T -> res T) args kwargs c,
    closure_convert is_arr is_sds struct sds strip trace b fn args kwargs = Ok c ->
    in_struct c = Ok (lw (fun a => Leaf (if is_struct a then sds (strip (struct a)) else a)) (Node 0 [args; kwargs])).
  Proof.
    intros b fn args kwargs c H.
    assert (G : eqx_combine no_leaf [strip_weak struct sds strip (lw (fun a => if is_struct a then Leaf a else TNone) (Node 0 [args; kwargs]));
                  lw (fun a => if is_struct a then TNone else Leaf a) (Node 0 [args; kwargs])] =
                Ok (lw (fun a => Leaf (if is_struct a then sds (strip (struct a)) else a)) (Node 0 [args; kwargs]))).
    { unfold strip_weak. rewrite tmap_lw, lw_lw. generalize (Node 0 [args; kwargs]). intros t.
      match goal with |- eqx_combine _ [lw ?f t; lw ?g t] = _ => pose proof (combine_lw f [g] t) as E end.
      cbn [map] in E. rewrite E.
      - f_equal. apply lw_ext. intros a. destruct (is_struct a); reflexivity.
      - intros a. destruct (is_struct a); exact I. }
    unfold closure_convert in H. rewrite partition_lw in H. cbn [bind] in H. destruct b; cbn [negb] in H.
    - apply bind_ok in H as ([[jx do] so] & _ & H). match type of H with Ok ?x = Ok c => assert (Ec : c = x) by congruence end. clear H. subst c. unfold in_struct. rewrite !unflatten_flatten'. cbn [bind]. exact G.
    - match type of H with Ok ?x = Ok c => assert (Ec : c = x) by congruence end. clear H. subst c. unfold in_struct. rewrite !unflatten_flatten'. cbn [bind]. exact G.
  Qed.
  Theorem C67_out_struct : forall shape (fn : T -> T -> res T) (za zk : tree D) c,
    closure_convert is_arr is_sds struct sds strip trace true fn (example za) (example zk) = Ok c ->
    all_fit same za -> all_fit same zk ->
    exists out, fn (mixed za) (mixed zk) = Ok out /\
      out_struct shape c = Ok (lw (fun a => Leaf (if is_arr a then sds (struct a) else a)) out).
  Proof.
    intros shape fn za zk c H Ha Hk. unfold closure_convert in H. rewrite partition_lw in H. cbn [bind negb] in H.
    apply bind_ok in H as ([[jx do] so] & Hj & H). injection H as <-.
    destruct (C67_make_jaxpr fn za zk jx do so Hj Ha Hk) as (out & Hout & _ & -> & ->).
    exists out. split; [exact Hout|]. unfold out_struct. rewrite !unflatten_flatten'. cbn [bind].
    match goal with |- eqx_combine _ [lw ?f ?t; lw ?g ?t] = _ => pose proof (combine_lw f [g] t) as E end.
    cbn [map] in E. rewrite E.
    - f_equal. apply lw_ext. intros a. destruct (is_arr a); reflexivity.
    - intros a. destruct (is_arr a); exact I.
  Qed.

  (** ** C68 *)
  (** The function, its bound arrays included, is evaluated on abstract values: the result is the output for
      any arrays of these abstract values, with structs for arrays. *)
  Theorem C68_eval_shape : forall (call : T -> T -> T -> res T) (zf za zk : tree D) r,
    eval_shape is_arr is_sds struct sds trace call (example zf) (example za) (example zk) = Ok r ->
    all_fit same zf -> all_fit same za -> all_fit same zk ->
    exists out, call (mixed zf) (mixed za) (mixed zk) = Ok out /\
      (forall a, In a (labels out) -> is_sds a = false) /\
      r = lw (fun a => Leaf (if is_arr a then sds (struct a) else a)) out.
  Proof.
    intros call zf za zk r H Hf Ha Hk. unfold eval_shape in H.
    set (z := Node 0 [zf; za; zk]).
    assert (Hz : all_fit same z).
    { intros p Hp. unfold z in Hp. cbn [labels map concat] in Hp. rewrite app_nil_r in Hp.
      apply in_app_or in Hp as [Hp|Hp]; auto. apply in_app_or in Hp as [Hp|Hp]; auto. }
    change (Node 0 [example zf; example za; example zk]) with (example z) in H. rewrite partition_lw in H. cbn [bind] in H.
    apply bind_ok in H as ([[jx ss] [def so]] & Ht & H). apply bind_ok in H as (do & Hd & H).
    destruct (TRACE _ _ _ _ _ Ht (labels (dyn z)) (dyn_arrays _ z Hz)) as (outs & HF & Hj & Hs).
    { rewrite flat_labels. apply dyn_structs, Hz. }
    unfold evaluated in HF. rewrite unflatten_dyn_of in HF. cbn [bind] in HF. rewrite combine_dyn' in HF.
    change (mixed z) with (Node 0 [mixed zf; mixed za; mixed zk]) in HF. cbn [bind] in HF.
    apply bind_ok in HF as (out & Hout & HF). rewrite partition_lw in HF. cbn [bind] in HF. rewrite flat_labels in HF.
    destruct (forallb is_arr _) eqn:Hall; [|discriminate]. injection HF as <- <- <-.
    rewrite labels_filter in Hall.
    assert (Hno : forall a, In a (labels out) -> is_sds a = false).
    { intros a Ha'. destruct (is_sds a) eqn:E; [|reflexivity]. rewrite forallb_forall in Hall.
      assert (X : is_arr a = true). { apply Hall. apply filter_In. split; [exact Ha'|]. unfold Closure_Model.is_struct. rewrite E. apply orb_true_r. }
      rewrite (kinds a E) in X. discriminate. }
    exists out. split; [exact Hout|]. split; [exact Hno|].
    rewrite <- Hs, map_map in Hd. rewrite (unflatten_map (fun a => sds (struct a))) in Hd. injection Hd as <-.
    rewrite lw_lw in H.
    match type of H with eqx_combine _ [lw ?f ?t; lw ?g ?t] = _ => pose proof (combine_lw f [g] t) as E end.
    cbn [map] in E. rewrite E in H.
    - injection H as <-. apply lw_ext_in. intros a Ha'. unfold Closure_Model.is_struct. rewrite (Hno a Ha'), orb_false_r.
      destruct (is_arr a); reflexivity.
    - intros a. destruct (is_struct a); exact I.
  Qed.
  (** So a function returning a struct cannot be evaluated, even though a struct is allowed as argument. *)
  Theorem C68_struct_output : forall (call : T -> T -> T -> res T) (zf za zk : tree D) out a,
    all_fit same zf -> all_fit same za -> all_fit same zk ->
    call (mixed zf) (mixed za) (mixed zk) = Ok out -> In a (labels out) -> is_sds a = true ->
    forall r, eval_shape is_arr is_sds struct sds trace call (example zf) (example za) (example zk) <> Ok r.
  Proof.
    intros call zf za zk out a Hf Ha Hk Ho Hin Hs r H.
    destruct (C68_eval_shape call zf za zk r H Hf Ha Hk) as (out' & Ho' & Hn & _).
    assert (out' = out) by congruence. subst out'. rewrite (Hn a Hin) in Hs. discriminate.
  Qed.

  (** Checkpointing does not change results. *)
  Theorem C68_checkpoint : forall (fn : T -> T -> res T) args kwargs out,
    checkpoint is_arr struct trace fn args kwargs = Ok out -> fn args kwargs = Ok out.
  Proof.
    intros fn args kwargs out H. unfold checkpoint in H. rewrite partition_lw in H. cbn [bind] in H.
    apply bind_ok in H as ([[jx ss] [def so]] & Ht & H). apply bind_ok in H as (outs & Hj & H). apply bind_ok in H as (do & Hd & H).
    rewrite !flat_labels in *.
    assert (Harr : forallb is_arr (labels (lw (fun a => if is_arr a then Leaf a else TNone) (Node 0 [args; kwargs]))) = true).
    { rewrite labels_filter. apply forallb_forall. intros a Ha. apply filter_In in Ha. tauto. }
    destruct (TRACE _ _ _ _ _ Ht _ Harr eq_refl) as (outs' & HF & Hj' & _).
    assert (outs' = outs) by congruence. subst outs'.
    unfold remat in HF. rewrite unflatten_other in HF by reflexivity. cbn [bind] in HF.
    assert (E : eqx_combine no_leaf [lw (fun a => if is_arr a then TNone else Leaf a) (Node 0 [args; kwargs]);
                                     lw (fun a => if is_arr a then Leaf a else TNone) (Node 0 [args; kwargs])] = Ok (Node 0 [args; kwargs])).
    { generalize (Node 0 [args; kwargs]). intros t.
      match goal with |- eqx_combine _ [lw ?f ?t; lw ?g ?t] = _ => pose proof (combine_lw f [g] t) as E end.
      cbn [map] in E. rewrite E.
      - f_equal. rewrite <- (lw_id t) at 2. apply lw_ext. intros a. destruct (is_arr a); reflexivity.
      - intros a. destruct (is_arr a); exact I. }
    rewrite E in HF. cbn [bind split2] in HF. apply bind_ok in HF as (o & Ho & HF). rewrite partition_lw in HF. cbn [bind] in HF.
    rewrite flat_labels in HF. injection HF as <- <- <-. rewrite unflatten_other in Hd by reflexivity. injection Hd as <-.
    rewrite join_arr in H. injection H as <-. exact Ho.
  Qed.

  (** The cached version: after any calls, the result is that of the uncached one on the arguments with structs,
      without weak types, for arrays; an unhashable leaf is a [TypeError]. Provided equal leaves are the same. *)
  Variable hashable : L -> bool.
  Fixpoint calls (call : T -> T -> T -> res T) (c : cache) (l : list (T * T * T)) : cache :=
    match l with
    | [] => c
    | (fn, args, kwargs) :: l =>
        calls call (snd (cached_eval_shape is_arr is_sds struct sds strip leq trace hashable call c fn args kwargs)) l
    end.
  Definition as_struct (t : T) : T := lw (fun a => Leaf (if is_arr a then sds (strip (struct a)) else a)) t.
  Lemma key_as_struct fn args kwargs :
    tmap no_leaf (to_struct is_arr struct sds strip) (Node 0 [fn; args; kwargs]) = Node 0 [as_struct fn; as_struct args; as_struct kwargs].
  Proof.
    rewrite tmap_lw. cbn [lw map]. unfold as_struct.
    do 2 f_equal; [|f_equal; [|f_equal]]; apply lw_ext; intros a; unfold to_struct; destruct (is_arr a); reflexivity.
  Qed.
  Theorem C68_cached : (forall a b, leq a b = true -> a = b) -> forall call l fn args kwargs,
    fst (cached_eval_shape is_arr is_sds struct sds strip leq trace hashable call (calls call [] l) fn args kwargs) =
    if forallb hashable (labels (as_struct fn) ++ labels (as_struct args) ++ labels (as_struct kwargs))
    then eval_shape is_arr is_sds struct sds trace call (as_struct fn) (as_struct args) (as_struct kwargs)
    else Err TypeError.
  Proof.
    intros Hleq call.
    set (good := fun c : @cache L => forall e, In e c -> exists fn args kwargs,
      fst e = Node 0 [fn; args; kwargs] /\ eval_shape is_arr is_sds struct sds trace call fn args kwargs = Ok (snd e)).
    assert (Heq : forall t u : T, tree_equal leq t u = true -> t = u).
    { intros t u H. apply tree_equal_zip in H as (z & <- & <- & Hz). apply lw_ext_in. intros p Hp. rewrite (Hleq _ _ (Hz p Hp)). reflexivity. }
    assert (Hone : forall c fn args kwargs, good c ->
      let r := cached_eval_shape is_arr is_sds struct sds strip leq trace hashable call c fn args kwargs in
      fst r = (if forallb hashable (labels (as_struct fn) ++ labels (as_struct args) ++ labels (as_struct kwargs))
               then eval_shape is_arr is_sds struct sds trace call (as_struct fn) (as_struct args) (as_struct kwargs)
               else Err TypeError) /\ good (snd r)).
    { intros c fn args kwargs Hc r. unfold r, cached_eval_shape. rewrite key_as_struct, flat_labels.
      cbn [labels map concat]. rewrite app_nil_r.
      destruct (forallb hashable _); cbn [negb]; [|auto].
      destruct (find _ c) as [e|] eqn:Hf.
      - apply find_some in Hf as [Hin Hf]. apply Heq in Hf. destruct (Hc e Hin) as (f & a & k & E & Ev).
        rewrite <- Hf in E. injection E as <- <- <-. cbn [fst snd]. rewrite Ev. auto.
      - destruct (eval_shape _ _ _ _ _ _ _ _ _) as [v|e'] eqn:Ev; cbn [fst snd]; [|auto]. split; [reflexivity|].
        intros e [<-|Hin]; [|auto]. do 3 eexists. split; [reflexivity|exact Ev]. }
    intros l fn args kwargs.
    assert (Hg : good (calls call [] l)).
    { assert (G : forall l c, good c -> good (calls call c l)).
      { clear l. intros l. induction l as [|[[f a] k] l IH]; intros c Hc; simpl; [exact Hc|]. apply IH. apply (Hone c f a k Hc). }
      apply G. intros e []. }
    apply (Hone _ fn args kwargs Hg).
  Qed.
End Props.

(** ** A small instance: one-bit arrays with a weak type flag, their structs, and Python numbers of several types
    compared by value. Tracing runs the function on all arrays of the given abstract values; the jaxpr converts its
    arguments to the abstract values it was traced with, as a jaxpr's [convert_element_type] does. *)
Inductive leaf := Arr (w v : bool) | Sds (w : bool) | Num (ty n : nat).
Definition i_arr (a : leaf) : bool := match a with Arr _ _ => true | _ => false end.
Definition i_sds (a : leaf) : bool := match a with Sds _ => true | _ => false end.
Definition i_struct (a : leaf) : bool := match a with Arr w _ | Sds w => w | _ => false end.
Definition i_strip (_ : bool) : bool := false.
Definition leaf_eqb (a b : leaf) : bool :=
  match a, b with
  | Arr w v, Arr w' v' => Bool.eqb w w' && Bool.eqb v v'
  | Sds w, Sds w' => Bool.eqb w w'
  | Num t n, Num t' n' => Nat.eqb t t' && Nat.eqb n n'
  | _, _ => false
  end.
Lemma leaf_eqb_eq a b : leaf_eqb a b = true -> a = b.
Proof.
  destruct a, b; simpl; try discriminate; intros H; try (apply andb_prop in H as [H1 H2]).
  - apply Bool.eqb_prop in H1. apply Bool.eqb_prop in H2. congruence.
  - apply Bool.eqb_prop in H. congruence.
  - apply Nat.eqb_eq in H1. apply Nat.eqb_eq in H2. congruence.
Qed.
Definition i_leq (a b : leaf) : bool :=
  match a, b with Num _ n, Num _ n' => Nat.eqb n n' | _, _ => leaf_eqb a b end.
Fixpoint enum (ss : list bool) : list (list leaf) :=
  match ss with
  | [] => [[]]
  | s :: ss => map (cons (Arr s true)) (enum ss) ++ map (cons (Arr s false)) (enum ss)
  end.
Lemma enum_in ws : forall ss, forallb i_arr ws = true -> map i_struct ws = ss -> In ws (enum ss).
Proof.
  induction ws as [|a ws IH]; intros [|s ss]; simpl; intros H1 H2; try discriminate; [auto|].
  apply andb_prop in H1 as [H1 H3]. injection H2 as H2 H4. destruct a as [w v| |]; try discriminate. simpl in H2. subst w.
  apply in_or_app. destruct v; [left|right]; apply in_map; apply IH; auto.
Qed.
Fixpoint convert (ss : list bool) (ws : list leaf) : list leaf :=
  match ss, ws with s :: ss, Arr _ v :: ws => Arr s v :: convert ss ws | _, _ => ws end.
Lemma convert_id ws : forall ss, forallb i_arr ws = true -> map i_struct ws = ss -> convert ss ws = ws.
Proof.
  induction ws as [|a ws IH]; intros [|s ss]; simpl; intros H1 H2; try discriminate; auto.
  apply andb_prop in H1 as [H1 H3]. injection H2 as H2 H4. destruct a as [w v| |]; try discriminate. simpl in H2. subst w.
  rewrite IH; auto.
Qed.
Fixpoint bools_eqb (l m : list bool) : bool :=
  match l, m with [], [] => true | a :: l, b :: m => Bool.eqb a b && bools_eqb l m | _, _ => false end.
Lemma bools_eqb_eq l : forall m, bools_eqb l m = true -> l = m.
Proof.
  induction l as [|a l IH]; intros [|b m]; simpl; try discriminate; auto. intros H. apply andb_prop in H as [H1 H2].
  apply Bool.eqb_prop in H1. rewrite (IH m H2). congruence.
Qed.
Definition i_trace (F : @flat_fn leaf) (ss : list bool) : res (@jaxpr leaf * list bool * @pydata leaf) :=
  match F (map (fun s => Arr s true) ss) with
  | Err e => Err e
  | Ok (outs, (d, t)) =>
      if forallb (fun ws => match F ws with
                            | Ok (outs', (d', t')) => tdef_eqb d' d && tree_equal leaf_eqb t' t && bools_eqb (map i_struct outs') (map i_struct outs)
                            | Err _ => false
                            end) (enum ss)
      then Ok (fun ws => rmap fst (F (convert ss ws)), map i_struct outs, (d, t))
      else Err TypeError
  end.
Example C67_ex_tracing : tracing i_arr i_struct i_trace.
Proof.
  intros F ss jx os data H ws Ha Hs. unfold i_trace in H.
  destruct (F (map _ ss)) as [[outs [d t]]|]; [|discriminate]. destruct (forallb _ (enum ss)) eqn:Hall; [|discriminate].
  rewrite forallb_forall in Hall. specialize (Hall ws (enum_in ws ss Ha Hs)).
  injection H as <- <- <-. rewrite (convert_id ws ss Ha Hs). destruct (F ws) as [[outs' [d' t']]|]; [|discriminate].
  apply andb_prop in Hall as [Hall H3]. apply andb_prop in Hall as [H1 H2]. apply tdef_eqb_spec in H1. apply bools_eqb_eq in H3.
  apply tree_equal_zip in H2 as (z & <- & <- & Hz). exists outs'. rewrite H1, H3.
  assert (E : lw (fun p : leaf * leaf => Leaf (fst p)) z = lw (fun p => Leaf (snd p)) z).
  { apply lw_ext_in. intros p Hp. rewrite (leaf_eqb_eq _ _ (Hz p Hp)). reflexivity. }
  rewrite E. auto.
Qed.
Example C67_ex_hypotheses :
  (forall s s', i_leq (Sds s) (Sds s') = true <-> s = s') /\
  (forall s, i_sds (Sds s) = true /\ i_arr (Sds s) = false /\ i_struct (Sds s) = s) /\
  (forall a, i_sds a = true -> i_arr a = false) /\
  (forall s, i_strip (i_strip s) = i_strip s).
Proof.
  repeat split; auto.
  - apply Bool.eqb_prop.
  - intros ->. apply Bool.eqb_reflx.
  - intros []; simpl; congruence.
Qed.

Notation i_make := (make_jaxpr i_arr i_sds i_struct Sds i_trace).
Notation i_convert := (closure_convert i_arr i_sds i_struct Sds i_strip i_trace).
Notation i_call := (call_converted i_arr i_struct Sds i_strip i_leq).
Notation i_eval := (eval_shape i_arr i_sds i_struct Sds i_trace).
Notation i_cached := (cached_eval_shape i_arr i_sds i_struct Sds i_strip i_leq i_trace (fun _ => true)).

(** The negation of an array, and the number plus one. *)
Definition ex_fn (args kwargs : tree leaf) : res (tree leaf) :=
  match args with
  | Node 0 [Leaf (Arr w v); Leaf (Num t n)] => Ok (Node 5 [Leaf (Arr w (negb v)); Leaf (Num t (n + 1))])
  | _ => Err AttributeError
  end.
Example C67_ex_make :
  exists jx, i_make ex_fn (Node 0 [Leaf (Sds false); Leaf (Num 0 3)]) (Node 1 []) =
             Ok (jx, Node 5 [Leaf (Sds false); TNone], Node 5 [TNone; Leaf (Num 0 4)]) /\
  jx [Arr false true] = Ok [Arr false false].
Proof. eexists. split; reflexivity. Qed.
Example C67_ex_call :
  exists c, i_convert true ex_fn (Node 0 [Leaf (Arr false true); Leaf (Num 0 3)]) (Node 1 []) = Ok c /\
  i_call c (Node 0 [Leaf (Arr false false); Leaf (Num 0 3)]) (Node 1 []) = Ok (Node 5 [Leaf (Arr false true); Leaf (Num 0 4)]) /\
  i_call c (Node 0 [Leaf (Arr false false); Leaf (Num 0 4)]) (Node 1 []) = Err ValueError /\
  i_call c (Node 0 [Leaf (Sds false); Leaf (Num 0 3)]) (Node 1 []) = Err ValueError /\
  i_call c (Node 0 [TNone; Leaf (Num 0 3)]) (Node 1 []) = Err ValueError /\
  i_call c (Node 0 []) (Node 1 []) = Err ValueError /\
  in_struct c = Ok (Node 0 [Node 0 [Leaf (Sds false); Leaf (Num 0 3)]; Node 1 []]) /\
  out_struct (fun _ _ _ => Err TypeError) c = Ok (Node 5 [Leaf (Sds false); Leaf (Num 0 4)]).
Proof. eexists. split; [reflexivity|]. repeat split. Qed.
Example C67_ex_all_fit :
  all_fit i_arr i_sds i_struct i_leq same (Node 0 [Leaf (Arr false true, Arr false false); Leaf (Num 0 3, Num 0 3)]).
Proof. intros p [<-|[<-|[]]]; repeat split. Qed.

(** "A converted function computes the function wherever it does not raise" is false. Non-arrays are compared with
    [==]: 1, 1.0 and True are the same, and the example's value is used. *)
Theorem C67_equal_numbers_refuted :
  ~ (forall fn ex_args args kwargs c out,
       i_convert true fn ex_args kwargs = Ok c -> i_call c args kwargs = Ok out -> fn args kwargs = Ok out).
Proof.
  intros H.
  assert (X := H ex_fn (Node 0 [Leaf (Arr false true); Leaf (Num 0 1)]) (Node 0 [Leaf (Arr false true); Leaf (Num 7 1)]) (Node 1 []) _ _ eq_refl eq_refl).
  discriminate X.
Qed.
(** Nor is it true with the same non-arrays. The jaxpr is traced with the example's weak types, but they are ignored by the
    check: multiplying by a [bfloat16] rounds a weakly typed number only. *)
Definition round_weak (args kwargs : tree leaf) : res (tree leaf) :=
  match args with
  | Node 0 [Leaf (Arr w v)] => Ok (Leaf (Arr false (if w then false else v)))
  | _ => Err AttributeError
  end.
Theorem C67_weak_type_refuted :
  ~ (forall fn (za zk : tree (leaf * leaf)) c out,
       i_convert true fn (example za) (example zk) = Ok c ->
       (forall p, In p (labels za ++ labels zk) -> i_arr (fst p) = false -> fst p = snd p) ->
       i_call c (actual za) (actual zk) = Ok out -> fn (actual za) (actual zk) = Ok out).
Proof.
  intros H.
  assert (X := H round_weak (Node 0 [Leaf (Arr true true, Arr false true)]) (Node 1 []) _ (Leaf (Arr false false)) eq_refl).
  assert (Y : forall p : leaf * leaf, In p (labels (Node 0 [Leaf (Arr true true, Arr false true)]) ++ labels (Node 1 [])) -> i_arr (fst p) = false -> fst p = snd p).
  { intros p [<-|[]]. discriminate. }
  specialize (X Y eq_refl). discriminate X.
Qed.
(** And a plain function behaves otherwise than one with a closure: there, the caller's numbers are used. *)
Example C67_ex_trivial :
  exists c, i_convert false ex_fn (Node 0 [Leaf (Arr false true); Leaf (Num 0 1)]) (Node 1 []) = Ok c /\
  i_call c (Node 0 [Leaf (Arr false true); Leaf (Num 7 1)]) (Node 1 []) = Ok (Node 5 [Leaf (Arr false false); Leaf (Num 7 2)]).
Proof. eexists. split; reflexivity. Qed.

Definition ex_py (fn args kwargs : tree leaf) : res (tree leaf) := ex_fn args kwargs.
Example C68_ex_eval :
  i_eval ex_py (Leaf (Num 9 9)) (Node 0 [Leaf (Arr true true); Leaf (Num 0 3)]) (Node 1 []) = Ok (Node 5 [Leaf (Sds true); Leaf (Num 0 4)]).
Proof. reflexivity. Qed.
Example C68_ex_struct_output :
  i_eval (fun _ _ _ => Ok (Leaf (Sds true))) (Leaf (Num 9 9)) (Node 0 []) (Node 1 []) = Err TypeError.
Proof. reflexivity. Qed.
Example C68_ex_checkpoint :
  checkpoint i_arr i_struct i_trace ex_fn (Node 0 [Leaf (Arr true true); Leaf (Num 0 3)]) (Node 1 []) = Ok (Node 5 [Leaf (Arr true false); Leaf (Num 0 4)]).
Proof. reflexivity. Qed.
Example C68_ex_cached :
  fst (i_cached ex_py [] (Leaf (Num 9 9)) (Node 0 [Leaf (Arr false true); Leaf (Num 0 3)]) (Node 1 [])) = Ok (Node 5 [Leaf (Sds false); Leaf (Num 0 4)]).
Proof. reflexivity. Qed.
(** With Python's equality the cached version is wrong: after a call with 1, a call with True (or 1.0) gives the
    result for 1. *)
Theorem C68_cached_equal_numbers_refuted :
  ~ (forall call c fn args kwargs args',
       c = snd (i_cached call [] fn args' kwargs) ->
       (forall a, In a (labels args) -> i_arr a = false) ->
       fst (i_cached call c fn args kwargs) = i_eval call fn args kwargs).
Proof.
  intros H.
  assert (X := H (fun _ args _ => Ok args) _ (Leaf (Num 9 9)) (Node 0 [Leaf (Num 7 1)]) (Node 1 []) (Node 0 [Leaf (Num 0 1)]) eq_refl).
  assert (Y : forall a : leaf, In a (labels (Node 0 [Leaf (Num 7 1)])) -> i_arr a = false) by (intros a [<-|[]]; reflexivity).
  specialize (X Y). discriminate X.
Qed.
(** Nor does it agree with the uncached version on weakly typed arrays. *)
Theorem C68_cached_weak_type_refuted :
  ~ (forall call fn args kwargs, fst (i_cached call [] fn args kwargs) = i_eval call fn args kwargs).
Proof.
  intros H. assert (X := H (fun _ args _ => Ok args) (Leaf (Num 9 9)) (Node 0 [Leaf (Arr true true)]) (Node 1 [])). discriminate X.
Qed.

Print Assumptions C67_make_jaxpr.
Print Assumptions C67_call.
Print Assumptions C67_trivial.
Print Assumptions C67_refused.
Print Assumptions C67_in_struct.
Print Assumptions C67_out_struct.
Print Assumptions C67_equal_numbers_refuted.
Print Assumptions C67_weak_type_refuted.
Print Assumptions C68_eval_shape.
Print Assumptions C68_struct_output.
Print Assumptions C68_checkpoint.
Print Assumptions C68_cached.
Print Assumptions C68_cached_equal_numbers_refuted.
Print Assumptions C68_cached_weak_type_refuted.
