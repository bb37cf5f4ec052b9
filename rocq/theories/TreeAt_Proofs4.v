From Verif Require Export TreeAt_Proofs3.

Lemma map_combine_fst {X Y} (l : list X) (r : list Y) : length l = length r -> map fst (List.combine l r) = l.
Proof. revert r; induction l as [|x l IH]; intros [|y r] H; cbn in *; try discriminate; auto. f_equal; auto. Qed.
Lemma map_combine_snd {X Y} (l : list X) (r : list Y) : length l = length r -> map snd (List.combine l r) = r.
Proof. revert r; induction l as [|x l IH]; intros [|y r] H; cbn in *; try discriminate; auto. f_equal; auto. Qed.
Lemma combine_map_pair {X Y} (l : list (X * Y)) : List.combine (map fst l) (map snd l) = l.
Proof. induction l as [|[x y] l IH]; cbn; auto. f_equal; auto. Qed.

Section Top.
  Context {A : Type} (aeq : A -> A -> bool) (uisl : tree A -> bool).
  Hypothesis aeq_refl : forall a, aeq a a = true.
  Notation isl := (by_value uisl).
  Notation D := (D uisl).
  Notation const := (fun (r : tree A) (_ : pyobj A) => Ok (embed r)).

  Variable t : tree A.

  (** [l] lists the selected positions with what is there. *)
  Definition selected (l : list (path * tree A)) : Prop :=
    (forall p s, In (p, s) l -> sub t p = Some s) /\ (forall p s, In (p, s) l -> visible uisl t p).

  Lemma where_many_sel ps n2 : where_many ps (copy2 isl [] (copy1 [] t)) = Ok n2 ->
    exists l, selected l /\ map fst l = ps /\
      n2 = PNode (3, []) ktuple (map (fun x => D (rev (fst x)) (snd x)) l) /\
      where_many ps (copy1 [] t) = Ok (PNode (3, []) ktuple (map (fun x => copy1 (rev (fst x)) (snd x)) l)).
  Proof.
    unfold where_many. intros H. apply rmap_ok in H as (ns & HM & ->).
    change (copy2 isl [] (copy1 [] t)) with (D [] t) in HM.
    assert (HH : exists l, selected l /\ map fst l = ps /\ ns = map (fun x => D (rev (fst x)) (snd x)) l /\
       mapM (pick (copy1 [] t)) ps = Ok (map (fun x => copy1 (rev (fst x)) (snd x)) l)).
    { revert ns HM; induction ps as [|p ps IH]; intros ns HM; cbn in HM.
      - inv HM. exists []. split; [split; intros ? ? []|auto].
      - apply bind_ok in HM as (x & Hx & HM). apply bind_ok in HM as (xs & Hxs & HM). inv HM.
        apply pick_D_inv in Hx as (HV & s & Hs & ->). rewrite app_nil_r.
        destruct (IH _ Hxs) as (l & [S1 S2] & HF & -> & HC).
        exists ((p, s) :: l). split; [split; intros q u [E|Hin]; [inv E; auto|eauto|inv E; auto|eauto]|].
        split; [cbn; congruence|]. split; [auto|]. cbn [mapM].
        rewrite pick_copy1, Hs, app_nil_r. cbn [bind]. rewrite HC. auto. }
    destruct HH as (l & HS & HF & -> & HC). exists l. split; [auto|]. split; [auto|]. split; [auto|].
    rewrite HC; auto.
  Qed.
  Lemma where_many_vis l : selected l ->
    where_many (map fst l) (copy2 isl [] (copy1 [] t)) =
    Ok (PNode (3, []) ktuple (map (fun x => D (rev (fst x)) (snd x)) l)).
  Proof.
    intros [S1 S2]. unfold where_many. change (copy2 isl [] (copy1 [] t)) with (D [] t).
    assert (mapM (pick (D [] t)) (map fst l) = Ok (map (fun x => D (rev (fst x)) (snd x)) l)) as ->; auto.
    induction l as [|[p s] l IH]; cbn; auto.
    rewrite (pick_D uisl t p) with (s := s); [|eapply S2; left; eauto|apply S1; left; auto]. cbn.
    rewrite IH, app_nil_r; [auto| |]; intros; [apply S1|eapply S2]; right; eauto.
  Qed.
  Lemma where_one_sel p n2 : where_one p (copy2 isl [] (copy1 [] t)) = Ok n2 ->
    exists s, selected [(p, s)] /\ n2 = D (rev p) s /\ where_one p (copy1 [] t) = Ok (copy1 (rev p) s).
  Proof.
    unfold where_one. change (copy2 isl [] (copy1 [] t)) with (D [] t). intros H.
    apply pick_D_inv in H as (HV & s & Hs & ->). rewrite app_nil_r. exists s.
    split; [split; intros q u [E|[]]; inv E; auto|]. split; auto.
    rewrite pick_copy1, Hs, app_nil_r; auto.
  Qed.

  (** The rest of [tree_at], once the dictionary is known. *)
  Definition run (d : list (pyobj A * (pyobj A -> res (pyobj A)))) : res (tree A) :=
    out <- replace_all aeq d (D [] t) ;;
    if forallb (fun n => Nat.eqb (count aeq d (D [] t) n) 1) (map fst d)
    then if leaks out then Err leak_error else Ok (erase out)
    else Err ValueError.

  Lemma tree_at_many l r f : selected l -> uisl (Node ktuple (map snd l)) = false ->
    tree_at aeq isl (where_many (map fst l)) t r f =
    (d <- fns_of false (PNode (3, []) ktuple (nodes uisl l)) r f ;; run d).
  Proof.
    intros HS HU. pose proof (where_many_vis l HS) as E2.
    pose proof E2 as E2'. apply where_many_sel in E2' as (l' & HS' & HF & HE & E1).
    assert (l' = l) as ->.
    { destruct HS as [S1 _], HS' as [S1' _]. clear -S1 S1' HF.
      revert l' S1' HF; induction l as [|[p s] l IH]; intros [|[p' s'] l'] S1' HF; cbn in HF; try discriminate; auto.
      injection HF as -> HF. f_equal.
      - f_equal. pose proof (S1 p s (or_introl eq_refl)). pose proof (S1' p s' (or_introl eq_refl)). congruence.
      - apply IH; auto; intros; [apply S1|apply S1']; right; auto. }
    unfold tree_at. rewrite E1; cbn [bind]. rewrite E2; cbn [bind].
    pose proof (check_many aeq uisl aeq_refl (3, []) ktuple (map (fun x => (rev (fst x), snd x)) l)) as HC.
    rewrite !map_map in HC. cbn [fst snd] in HC. rewrite HC by (rewrite <- HU; f_equal; f_equal; apply map_ext; auto).
    cbn [bind]. change (copy2 isl [] (copy1 [] t)) with (D [] t). rewrite in_pytree_fresh.
    reflexivity.
  Qed.
  Lemma tree_at_one p s r f : selected [(p, s)] ->
    tree_at aeq isl (where_one p) t r f =
    (d <- fns_of true (D (rev p) s) r f ;; run d).
  Proof.
    intros [S1 S2]. pose proof (S1 p s (or_introl eq_refl)) as Hs. pose proof (S2 p s (or_introl eq_refl)) as HV.
    unfold tree_at, where_one. change (copy2 isl [] (copy1 [] t)) with (D [] t).
    rewrite pick_copy1, Hs, app_nil_r; cbn [bind].
    rewrite (pick_D uisl t p HV [] s Hs), app_nil_r; cbn [bind].
    rewrite check_one by auto; cbn [bind].
    pose proof (in_pytree_D aeq uisl aeq_refl t p HV [] s Hs) as HI. rewrite app_nil_r in HI. rewrite HI.
    reflexivity.
  Qed.

  Lemma fns_vals k l rs : is_seq k = true -> fns_of false (PNode (3, []) ktuple (nodes uisl l)) (Some (Node k rs)) None =
    if Nat.eqb (length l) (length rs) then Ok (dict uisl l (map const rs)) else Err ValueError.
  Proof.
    intros Hk. unfold fns_of, seq_items, seq_vals. rewrite Hk. cbn [bind].
    change (is_seq ktuple) with true. cbn [bind].
    assert (length (nodes uisl l) = length l) as -> by (unfold nodes; apply map_length).
    destruct (Nat.eqb (length l) (length rs)); auto.
  Qed.
  Lemma fns_val p s r : fns_of true (D (rev p) s) (Some r) None = Ok (dict uisl [(p, s)] (map const [r])).
  Proof. reflexivity. Qed.

  Lemma run_vals l rs : selected l -> length rs = length l ->
    (exists out, run (dict uisl l (map const rs)) = Ok out) <-> good_selection uisl t l.
  Proof.
    intros [S1 S2] HL. assert (HL' : length (map const rs) = length l) by (rewrite map_length; auto).
    rewrite <- (counts_iff aeq uisl aeq_refl t l S1 S2 (map const rs) HL').
    destruct (vals_ok aeq uisl aeq_refl t l S1 rs HL) as [y Hy].
    unfold run. rewrite Hy; cbn [bind]. rewrite (vals_leaks aeq uisl t l rs y Hy).
    split.
    - intros [out H] n Hn. destruct (forallb _ _) eqn:E; [|discriminate].
      rewrite forallb_forall in E. apply Nat.eqb_eq, E; auto.
    - intros H. assert (forallb (fun n => Nat.eqb (count aeq (dict uisl l (map const rs)) (D [] t) n) 1)
                     (map fst (dict uisl l (map const rs))) = true) as ->; [|eauto].
      apply forallb_forall. intros n Hn. apply Nat.eqb_eq, H; auto.
  Qed.
  Lemma run_inv l rs out : run (dict uisl l (map const rs)) = Ok out ->
    exists y, replace_all aeq (dict uisl l (map const rs)) (D [] t) = Ok y /\ out = erase y.
  Proof.
    unfold run. intros H. apply bind_ok in H as (y & Hy & H). destruct (forallb _ _); [|discriminate].
    destruct (leaks y); [discriminate|]. inv H. eauto.
  Qed.

  (** Functions. *)
  Lemma unwrap_D s : forall rp, exists u, unwrap (D rp s) = Ok u /\ erase u = s.
  Proof.
    induction s as [a| |k cs IH] using tree_ind'; intros rp;
      match goal with |- context [D rp ?s] =>
        destruct (D_cases uisl rp s) as [[B E]|[[B [v E]]|(B & U & k' & cs' & EE & E)]] end;
      try discriminate; rewrite E; cbn [unwrap remove_leaf_wrapper].
    all: try (eexists; split; [reflexivity|]; pose proof (erase_D uisl rp) as HE).
    - specialize (HE (Leaf a)). rewrite E in HE. exact HE.
    - reflexivity.
    - specialize (HE TNone). rewrite E in HE. exact HE.
    - specialize (HE (Node k cs)). rewrite E in HE. exact HE.
    - inv EE. clear E U B.
      assert (HH : forall n, exists us, mapM unwrap (mapi (fun i c => D (i :: rp) c) n cs') = Ok us /\ map erase us = cs').
      { induction IH as [|c cs Hc _ IHcs]; intros n; cbn; [exists []; auto|].
        destruct (Hc (n :: rp)) as (u & -> & Eu). destruct (IHcs (S n)) as (us & -> & Eus).
        cbn. exists (u :: us). cbn. split; auto. congruence. }
      destruct (HH 0) as (us & -> & Eus). cbn. eexists; split; [reflexivity|]. cbn. congruence.
  Qed.

  Lemma fns_fn l g : fns_of false (PNode (3, []) ktuple (nodes uisl l)) None (Some (fn_by_value g)) =
    Ok (dict uisl l (map (fun _ x => y <- unwrap x ;; fn_by_value g y) l)).
  Proof.
    cbn. f_equal. unfold dict, nodes. induction l as [|x l IH]; cbn; auto. f_equal; auto.
  Qed.
  Lemma fns_fn1 p s g : fns_of true (D (rev p) s) None (Some (fn_by_value g)) =
    Ok (dict uisl [(p, s)] (map (fun _ x => y <- unwrap x ;; fn_by_value g y) [(p, s)])).
  Proof. reflexivity. Qed.

  (** Two dictionaries with the same keys and the same effect on visited objects. *)
  Lemma run_ext d d' : map fst d = map fst d' ->
    (forall x, In x (map snd (vis aeq d (D [] t))) -> make_replacement aeq d x = make_replacement aeq d' x) ->
    run d = run d'.
  Proof.
    intros HK HM.
    assert (HCo : forall x, contains aeq d x = contains aeq d' x).
    { intros x. unfold contains. assert (HH : forall V (e : list (pyobj A * V)), existsb (fun nv => same aeq (fst nv) x) e =
        existsb (fun n => same aeq n x) (map fst e)).
      { clear. induction e as [|[n v] e IH]; cbn; auto. rewrite IH; auto. }
      rewrite !HH, HK; auto. }
    assert (HV : forall x, visited aeq d x = visited aeq d' x).
    { intros x; induction x as [a| |i k cs IH|i x IH|i] using pyobj_ind'; cbn; rewrite HCo; auto.
      destruct (contains aeq d' _); auto. f_equal. induction IH; cbn; auto. congruence. }
    assert (HR : forall x, (forall z, In z (visited aeq d x) -> make_replacement aeq d z = make_replacement aeq d' z) ->
                 replace_all aeq d x = replace_all aeq d' x).
    { assert (HL : forall x, contains aeq d x = false -> make_replacement aeq d x = make_replacement aeq d' x).
      { intros x HC. unfold make_replacement. destruct (lookup aeq d x) eqn:E1.
        - assert (contains aeq d x = true) by (apply lookup_contains; eauto). congruence.
        - destruct (lookup aeq d' x) eqn:E2; auto.
          assert (contains aeq d' x = true) by (apply lookup_contains; eauto). rewrite HCo in HC. congruence. }
      induction x as [a| |i k cs IH|i x IH|i] using pyobj_ind'; intros H; cbn [replace_all];
        rewrite <- HCo; destruct (contains aeq d _) eqn:HC;
        try (apply H; cbn [visited]; rewrite HC; left; reflexivity); auto.
      f_equal. cbn [visited] in H. rewrite HC in H.
      assert (HH : forall z, In z (concat (map (visited aeq d) cs)) -> make_replacement aeq d z = make_replacement aeq d' z) by auto.
      clear H HC. induction IH as [|c cs Hc _ IHcs]; cbn; auto.
      rewrite Hc, IHcs; auto; intros; apply HH; cbn; apply in_app_iff; auto. }
    unfold run. rewrite HR by (intros z Hz; apply HM; rewrite vis_visited; auto).
    destruct (replace_all aeq d' (D [] t)); cbn [bind]; auto. rewrite HK.
    assert (forallb (fun n => Nat.eqb (count aeq d (D [] t) n) 1) (map fst d') =
            forallb (fun n => Nat.eqb (count aeq d' (D [] t) n) 1) (map fst d')) as ->; auto.
    generalize (map fst d') as ks. induction ks; cbn; auto. rewrite IHks. unfold count. rewrite HV; auto.
  Qed.

  Lemma run_fn l g rs : selected l -> mapM g (map snd l) = Ok rs ->
    run (dict uisl l (map (fun _ x => y <- unwrap x ;; fn_by_value g y) l)) = run (dict uisl l (map const rs)).
  Proof.
    intros [S1 S2] HM. apply mapM_Forall2 in HM. pose proof (Forall2_len _ _ _ HM) as HL. rewrite map_length in HL.
    set (fs1 := map (fun (_ : path * tree A) x => y <- unwrap x ;; fn_by_value g y) l).
    assert (L1 : length fs1 = length l) by (unfold fs1; rewrite map_length; auto).
    assert (L2 : length (map const rs) = length l) by (rewrite map_length; auto).
    apply run_ext.
    - rewrite !dict_keys; auto.
    - intros x Hx. apply in_map_iff in Hx as ([q x'] & E & Hq). cbn in E; subst x'.
      apply vis_sel in Hq as (s & HVq & ->); auto.
      assert (HC1 : contains aeq (dict uisl l fs1) (D (rev q) s) = true)
        by (destruct HVq as (? & ? & ? & ?); apply contains_iff with (t := t); auto).
      assert (HC2 : contains aeq (dict uisl l (map const rs)) (D (rev q) s) = true)
        by (destruct HVq as (? & ? & ? & ?); apply contains_iff with (t := t); auto).
      apply lookup_contains in HC1 as [f1 Hf1], HC2 as [f2 Hf2].
      unfold make_replacement. rewrite Hf1, Hf2.
      apply lookup_In in Hf1 as (n1 & Hn1 & _). unfold dict in Hn1. apply in_combine_r in Hn1.
      unfold fs1 in Hn1. apply in_map_iff in Hn1 as (? & <- & _).
      destruct (unwrap_D s (rev q)) as (u & -> & Eu). cbn [bind]. unfold fn_by_value. rewrite Eu.
      apply lookup_In in Hf2 as (n2 & Hn2 & HS). unfold dict, nodes in Hn2.
      apply In_nth_error in Hn2 as [i Hi].
      assert (HE : exists v r, nth_error l i = Some v /\ nth_error rs i = Some r /\ n2 = D (rev (fst v)) (snd v) /\ f2 = const r).
      { clear -Hi HL. symmetry in HL. revert rs i HL Hi. induction l as [|v l' IH]; intros [|r rs'] [|i] HL Hi; cbn in HL, Hi; try discriminate.
        - inv Hi. exists v, r; auto.
        - destruct (IH rs' i) as (v1 & r1 & ? & ? & ? & ?); [congruence|exact Hi|]. exists v1, r1; auto. }
      destruct HE as ([p v] & r & Hv & Hr & -> & ->). cbn [fst snd] in *.
      destruct (Forall2_nth_rr _ _ _ _ _ HM Hr) as (w & Hw & Hg). rewrite nth_error_map, Hv in Hw.
      cbn in Hw. injection Hw as Hw. subst w.
      assert (v = s) as EV; [|]. 2:{ rewrite EV in Hg. rewrite Hg. reflexivity. }
      destruct HVq as (_ & Hq & _). apply same_D in HS as [[B1 B2]|(B1 & B2 & E)].
      + apply isbare_iff in B1 as [-> _], B2 as [-> _]. auto.
      + apply (f_equal (@rev nat)) in E. rewrite !rev_involutive in E. subst.
        apply nth_error_In, S1 in Hv. congruence.
  Qed.
End Top.
