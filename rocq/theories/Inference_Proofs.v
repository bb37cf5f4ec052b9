From Coq Require FinFun.
From Verif Require Export Shared_Spec TreeAt_Proofs5.

Section Inference.
  Context {A : Type} (aeq : A -> A -> bool) (attr : nat -> option nat).
  Hypothesis aeq_refl : forall a, aeq a a = true.
  Notation inference := (inference attr). Notation top_level := (top_level attr).
  Notation inferences := (inferences attr). Notation has_inference := (has_inference attr).

  (** What [_inferences] collects, by structural recursion. *)
  Fixpoint coll (x : pyobj A) : list (pyobj A) :=
    match inference x with Some v => [v] | None => [] end ++
    match x with PNode _ _ cs => concat (map coll cs) | _ => [] end.

  Lemma concat_map_concat {X Y} (f : X -> list Y) ls : concat (map f (concat ls)) = concat (map (fun l => concat (map f l)) ls).
  Proof. induction ls as [|l ls IH]; cbn; auto. rewrite map_app, concat_app, IH; auto. Qed.
  Lemma depth_child i k cs c : In c cs -> depth (@PNode A i k cs) >= S (depth c).
  Proof.
    cbn. intros H. apply le_n_S. induction cs as [|d cs IH]; [inv H|]. cbn. destruct H as [->|H]; [lia|].
    apply IH in H. lia.
  Qed.

  Lemma inferences_coll : forall fuel (x : pyobj A), depth x <= fuel -> inferences fuel x = coll x.
  Proof.
    induction fuel as [|fuel IH]; intros x HD; [destruct x; cbn in HD; lia|].
    assert (HT : forall c, depth c <= fuel -> concat (map (inferences fuel) (top_level c)) = coll c).
    { induction c as [a| |i k cs IHc|i c IHc|i] using pyobj_ind'; intros Hc; cbn [Shared_Model.top_level]; auto.
      destruct (has_inference (PNode i k cs)) eqn:EH.
      - cbn [map concat]. rewrite app_nil_r. apply IH; auto.
      - cbn [coll]. unfold Shared_Model.has_inference in EH. destruct (inference (PNode i k cs)); [discriminate|].
        cbn [app]. rewrite concat_map_concat, map_map. f_equal. apply map_ext_in. intros c Hin.
        rewrite Forall_forall in IHc. apply IHc; auto. pose proof (depth_child i k cs c Hin). lia. }
    cbn [Shared_Model.inferences]. destruct x as [a| |i k cs|i x|i]; try reflexivity.
    cbn [coll]. f_equal. rewrite concat_map_concat, map_map. f_equal. apply map_ext_in. intros c Hin.
    apply HT. pose proof (depth_child i k cs c Hin). lia.
  Qed.

  Fixpoint flag_paths (t : tree A) : list path :=
    match t with
    | Node k cs =>
        match attr k with Some i => if Nat.ltb i (length cs) then [[i]] else [] | None => [] end ++
        concat (mapi (fun j c => map (cons j) (flag_paths c)) 0 cs)
    | _ => []
    end.

  Lemma mapM_app {X Y} (f : X -> res Y) l l' ys ys' : mapM f l = Ok ys -> mapM f l' = Ok ys' ->
    mapM f (l ++ l') = Ok (ys ++ ys').
  Proof.
    revert ys; induction l as [|x l IH]; intros ys H H'; cbn in *; [inv H; auto|].
    destruct (f x) as [z|]; cbn in *; [|discriminate]. destruct (mapM f l) as [zs|]; cbn in *; [|discriminate]. inv H.
    rewrite (IH zs); auto.
  Qed.
  Lemma mapM_map {X Y Z} (g : X -> Y) (f : Y -> res Z) l : mapM f (map g l) = mapM (fun x => f (g x)) l.
  Proof. induction l as [|x l IH]; cbn; auto. rewrite IH; auto. Qed.
  Lemma mapM_ext_in {X Y} (f g : X -> res Y) l : (forall x, In x l -> f x = g x) -> mapM f l = mapM g l.
  Proof.
    induction l as [|x l IH]; intros H; cbn; auto. rewrite (H x) by (left; auto). rewrite IH; auto.
    intros; apply H; right; auto.
  Qed.

  (** Any way of dressing a tree that keeps nodes. *)
  Section Dressing.
    Variable F : path -> tree A -> pyobj A.
    Hypothesis F_leaf : forall rp a, coll (F rp (Leaf a)) = [].
    Hypothesis F_none : forall rp, coll (F rp TNone) = [].
    Hypothesis F_node : forall rp k cs,
      (cs = [] /\ coll (F rp (Node k cs)) = []) \/
      exists i, F rp (Node k cs) = PNode i k (mapi (fun i c => F (i :: rp) c) 0 cs).
    Lemma pick_flags t : forall rp, mapM (pick (F rp t)) (flag_paths t) = Ok (coll (F rp t)).
    Proof.
      induction t as [a| |k cs IH] using tree_ind'; intros rp.
      - rewrite F_leaf; auto.
      - rewrite F_none; auto.
      - destruct (F_node rp k cs) as [[-> ->]|[i E]].
        + cbn. destruct (attr k) as [j|]; auto.
        + rewrite E. cbn [coll flag_paths]. apply mapM_app.
          * cbn [Shared_Model.inference]. destruct (attr k) as [j|]; auto. rewrite nth_error_mapi.
            destruct (Nat.ltb_spec j (length cs)) as [L|L].
            -- destruct (nth_error_ge_ex cs j L) as [c Hc]. cbn [mapM pick]. rewrite nth_error_mapi, Hc. auto.
            -- apply nth_error_None in L. rewrite L. auto.
          * (* children *)
            assert (HC : forall cs' n, (forall j c, nth_error cs' j = Some c -> nth_error cs (n + j) = Some c) ->
              mapM (pick (PNode i k (mapi (fun i c => F (i :: rp) c) 0 cs)))
                (concat (mapi (fun j c => map (cons j) (flag_paths c)) n cs')) =
              Ok (concat (map coll (mapi (fun i c => F (i :: rp) c) n cs')))).
            { induction cs' as [|c cs' IHc]; intros n Hn; cbn [mapi map concat]; auto. apply mapM_app.
              - assert (Hc : nth_error cs n = Some c) by (rewrite <- (Hn 0 c eq_refl); f_equal; lia).
                rewrite mapM_map.
                rewrite Forall_forall in IH.
                rewrite <- (IH c (nth_error_In _ _ Hc) (n :: rp)). apply mapM_ext_in. intros p _.
                cbn [pick]. rewrite nth_error_mapi, Hc. auto.
              - apply IHc. intros j c' Hj. rewrite <- (Hn (S j) c' Hj). f_equal. lia. }
            apply HC. auto.
    Qed.
  End Dressing.

  Lemma pick_flags_copy1 t : mapM (pick (copy1 [] t)) (flag_paths t) = Ok (coll (copy1 [] t)).
  Proof.
    apply (pick_flags copy1); auto. intros rp k cs. cbn [copy1].
    destruct (Nat.eqb k ktuple && Nat.eqb (length cs) 0) eqn:E; [|right; eauto].
    left. apply andb_true_iff in E as [_ E]. destruct cs; [auto|discriminate].
  Qed.
  Lemma pick_flags_D t : mapM (pick (D no_leaf [] t)) (flag_paths t) = Ok (coll (D no_leaf [] t)).
  Proof.
    apply (pick_flags (D no_leaf)); auto. intros rp k cs. rewrite D_node by auto.
    destruct (Nat.eqb k ktuple && Nat.eqb (length cs) 0) eqn:E; [|right; eauto].
    left. apply andb_true_iff in E as [_ E]. destruct cs; [auto|discriminate].
  Qed.

  Lemma in_pytree_kind i k k' ns ns' x : in_pytree aeq (PNode i k ns) x = in_pytree aeq (PNode i k' ns') x.
  Proof.
    induction x as [a| |j k0 cs IH|j x IH|j] using pyobj_ind'; auto.
    cbn. destruct (ident_eqb j i); auto.
    induction IH as [|c cs Hc _ IHl]; cbn; auto. rewrite Hc, IHl; auto.
  Qed.
  (** Returning a list instead of a tuple makes no difference. *)
  Lemma tree_at_list w ps t r f ns1 ns2 :
    mapM (pick (copy1 [] t)) ps = Ok ns1 -> w (copy1 [] t) = Ok (PNode (3, []) klist ns1) ->
    mapM (pick (D no_leaf [] t)) ps = Ok ns2 -> w (D no_leaf [] t) = Ok (PNode (3, []) klist ns2) ->
    tree_at aeq (by_value no_leaf) w t r f = tree_at aeq (by_value no_leaf) (where_many ps) t r f.
  Proof.
    intros E1 W1 E2 W2. unfold tree_at. change (copy2 (by_value no_leaf) [] (copy1 [] t)) with (D no_leaf [] t).
    unfold where_many. rewrite W1, W2, E1, E2. cbn [rmap bind].
    rewrite (in_pytree_kind (3, []) klist ktuple ns2 ns2).
    assert (check_where aeq (by_value no_leaf) (PNode (3, []) klist ns1) (PNode (3, []) klist ns2) =
            check_where aeq (by_value no_leaf) (PNode (3, []) ktuple ns1) (PNode (3, []) ktuple ns2)) as -> by reflexivity.
    destruct (check_where _ _ _ _) as [[]|]; cbn [bind]; auto.
    assert (HI : in_pytree aeq (PNode (3, []) ktuple ns2) (D no_leaf [] t) = false).
    { apply in_pytree_fresh. }
    rewrite HI. reflexivity.
  Qed.

  Lemma inference_mode_many v t : inference_mode aeq attr v t =
    tree_at aeq (by_value no_leaf) (where_many (flag_paths t)) t None (Some (fn_by_value (fun _ => Ok (Leaf v)))).
  Proof.
    unfold inference_mode. eapply tree_at_list; [apply pick_flags_copy1| |apply pick_flags_D|];
      cbn beta; rewrite inferences_coll; auto.
  Qed.

  (** The positions. *)
  Lemma flag_nonempty t p : In p (flag_paths t) -> p <> [].
  Proof.
    destruct t as [a| |k cs]; cbn [flag_paths]; try (intros []; fail). rewrite in_app_iff, in_concat. intros [H|(l & H1 & H2)].
    - destruct (attr k) as [i|]; [|inv H]. destruct (Nat.ltb i (length cs)); [|inv H]. destruct H as [<-|[]]. discriminate.
    - apply In_mapi in H1 as (n & c & _ & ->). apply in_map_iff in H2 as (q & <- & _). discriminate.
  Qed.
  Lemma NoDup_app_intro {X} (l l' : list X) : NoDup l -> NoDup l' -> (forall x, In x l -> In x l' -> False) -> NoDup (l ++ l').
  Proof.
    induction l as [|x l IH]; intros H H' HX; cbn; auto. inversion H as [|y m Hn Hl]; subst. constructor.
    - rewrite in_app_iff. intros [Hi|Hi]; [auto|apply (HX x); auto; left; auto].
    - apply IH; auto. intros y Hy Hy'. apply (HX y); auto. right; auto.
  Qed.
  Lemma flag_NoDup t : NoDup (flag_paths t).
  Proof.
    induction t as [a| |k cs IH] using tree_ind'; cbn [flag_paths]; [constructor|constructor|].
    assert (HC : forall cs' n, Forall (fun c => NoDup (flag_paths c)) cs' ->
      NoDup (concat (mapi (fun j c => map (cons j) (flag_paths c)) n cs')) /\
      forall p, In p (concat (mapi (fun j c => map (cons j) (flag_paths c)) n cs')) ->
        exists j q, p = j :: q /\ n <= j /\ q <> []).
    { induction cs' as [|c cs' IHc]; intros n HF; cbn.
      - split; [constructor|intros p []].
      - inversion HF as [|x l Hc Hcs]; subst. destruct (IHc (S n) Hcs) as [N1 N2]. split.
        + apply NoDup_app_intro.
          * apply FinFun.Injective_map_NoDup; auto. intros x y E; congruence.
          * auto.
          * intros x Hx Hx'. apply in_map_iff in Hx as (q & <- & _). apply N2 in Hx' as (j & q' & E & L & _). inv E. lia.
        + intros p Hp. apply in_app_iff in Hp as [Hp|Hp].
          * apply in_map_iff in Hp as (q & <- & Hq). exists n, q. split; auto. split; auto. eapply flag_nonempty; eauto.
          * apply N2 in Hp as (j & q & -> & L & HQ). exists j, q. split; auto. split; auto. lia. }
    destruct (HC cs 0 IH) as [N1 N2].
    destruct (attr k) as [i|]; auto. destruct (Nat.ltb i (length cs)); auto. cbn. constructor; auto.
    intros Hin. apply N2 in Hin as (j & q & E & _ & HQ). inv E. congruence.
  Qed.

  Lemma flag_iff t p : In p (flag_paths t) <-> is_flag attr t p /\ sub t p <> None.
  Proof.
    revert p; induction t as [a| |k cs IH] using tree_ind'; intros p.
    - cbn. split; [tauto|]. intros [(q & k & cs & i & -> & H & _) HS]. destruct q; discriminate.
    - cbn. split; [tauto|]. intros [(q & k & cs & i & -> & H & _) HS]. destruct q; discriminate.
    - cbn [flag_paths]. rewrite in_app_iff, in_concat. split.
      + intros [H|(l & H1 & H2)].
        * destruct (attr k) as [i|] eqn:EA; [|inv H]. destruct (Nat.ltb_spec i (length cs)) as [L|]; [|inv H].
          destruct H as [<-|[]]. destruct (nth_error_ge_ex cs i L) as [c Hc].
          split; [exists [], k, cs, i; auto|]. cbn. rewrite Hc. discriminate.
        * apply In_mapi in H1 as (n & c & Hc & ->). apply in_map_iff in H2 as (q & <- & Hq). cbn [Nat.add] in *.
          rewrite Forall_forall in IH. apply (IH c (nth_error_In _ _ Hc)) in Hq as [(q0 & k0 & cs0 & i & -> & H & HA) HS].
          split; [exists (n :: q0), k0, cs0, i; cbn; rewrite Hc; auto|]. cbn. rewrite Hc. auto.
      + intros [(q & k0 & cs0 & i & -> & H & HA) HS]. destruct q as [|n q].
        * cbn in H. inv H. left. rewrite HA. cbn in HS. destruct (Nat.ltb_spec i (length cs0)) as [L|L]; [left; auto|].
          apply nth_error_None in L. rewrite L in HS. congruence.
        * right. cbn in H, HS. destruct (nth_error cs n) as [c|] eqn:Hc; [|discriminate].
          exists (map (cons n) (flag_paths c)). split; [apply In_mapi; exists n, c; auto|].
          cbn. apply in_map. rewrite Forall_forall in IH. apply (IH c (nth_error_In _ _ Hc)).
          split; auto. exists q, k0, cs0, i; auto.
  Qed.

  Lemma flag_leaf (t : tree A) p : flags_are_leaves attr t -> is_flag attr t p -> exists a, sub t p = Some (Leaf a).
  Proof.
    intros HF (q & k & cs & i & -> & H & HA). destruct (HF q k cs i H HA) as [a Ha]. exists a.
    rewrite sub_app, H. cbn. rewrite Ha. auto.
  Qed.
  Lemma flag_separate t : flags_are_leaves attr t -> separate (flag_paths t).
  Proof.
    intros HF. split; [apply flag_NoDup|]. intros p q Hp Hq HS.
    apply flag_iff in Hp as [Hp _]. apply flag_iff in Hq as [Hq _].
    apply (flag_leaf t) in Hp as [a Ha]; auto. apply (flag_leaf t) in Hq as [b Hb]; auto.
    destruct (sub_strict t p q _ HS Hb) as (k & cs & E). congruence.
  Qed.

  Lemma inference_spec v (t : tree A) : flags_are_leaves attr t ->
    exists out, inference_mode aeq attr v t = Ok out /\
      (forall p, is_flag attr t p -> sub out p = Some (Leaf v)) /\
      (forall p, ~ is_flag attr t p -> label_at out p = label_at t p).
  Proof.
    intros HF. pose proof (flag_separate t HF) as HS. set (ps := flag_paths t) in *.
    assert (HV : selects_values t ps).
    { intros p Hp. apply flag_iff in Hp as [Hp _]. apply (flag_leaf t) in Hp as [a Ha]; auto.
      exists (Leaf a). split; auto. discriminate. }
    set (rs := map (fun _ : path => Leaf v) ps).
    assert (HL : length rs = length ps) by apply map_length.
    destruct (values_ok aeq aeq_refl t ps rs HS HV HL) as [out Ho]. exists out. split.
    - rewrite inference_mode_many. fold ps. rewrite <- Ho.
      assert (HX : exists ss, Forall2 (fun p s => sub t p = Some s) ps ss).
      { clear -HV. induction ps as [|p ps IH]; [exists []; auto|]. destruct IH as [ss Hss]; [intros q Hq; apply HV; right; auto|].
        destruct (HV p (or_introl eq_refl)) as (s & Hs & _). exists (s :: ss); auto. }
      destruct HX as [ss Hss]. eapply fn_many; eauto.
      + unfold rs. clear -Hss. induction Hss; cbn; auto. rewrite IHHss. auto.
      + intros p Hp. destruct (HV p Hp) as (s & Hs & _). eapply visible_no_leaf; eauto.
    - apply put_get_many in Ho as [_ [H1 H2]]; try apply HS; auto.
      assert (HIN : forall p r, In (p, r) (List.combine ps rs) -> In p ps /\ r = Leaf v).
      { intros p r Hin. split; [eapply in_combine_l; eauto|]. apply in_combine_r in Hin.
        apply in_map_iff in Hin as (? & <- & _). auto. }
      assert (HIN' : forall p, In p ps -> In (p, Leaf v) (List.combine ps rs)).
      { intros p Hp. unfold rs. clear -Hp. induction ps as [|q ps IH]; [inv Hp|]. cbn. destruct Hp as [->|Hp]; auto. }
      assert (HFL : forall p, is_flag attr t p -> In p ps).
      { intros p Hp. apply flag_iff. split; auto. destruct (flag_leaf t p HF Hp) as [a Ha]. congruence. }
      split; [intros p Hp; apply H1; auto|].
      intros p Hp. destruct (Exists_dec (fun q => prefix q p) ps) as [HE|HE].
      { intros q. destruct (list_eq_dec Nat.eq_dec (firstn (length q) p) q) as [E|N].
        - left. exists (skipn (length q) p). rewrite <- E at 1. symmetry; apply firstn_skipn.
        - right. intros [s ->]. apply N. rewrite firstn_app, Nat.sub_diag, firstn_all, firstn_O, app_nil_r; auto. }
      + apply Exists_exists in HE as (q & Hq & [s ->]). apply flag_iff in Hq as Hq'. destruct Hq' as [Hq' _].
        destruct s as [|i s]; [rewrite app_nil_r in Hp; tauto|].
        unfold label_at. rewrite !sub_app, (H1 q (Leaf v)) by auto.
        destruct (flag_leaf t q HF Hq') as [a ->]. auto.
      + apply H2. intros q r Hin HP. apply HIN in Hin as [Hin _]. apply HE. apply Exists_exists. eauto.
  Qed.

  (** The flags of the result. *)
  Lemma mode_flags v (t : tree A) out : flags_are_leaves attr t -> inference_mode aeq attr v t = Ok out ->
    flags_are_leaves attr out /\ forall p, is_flag attr out p <-> is_flag attr t p.
  Proof.
    intros HF H. destruct (inference_spec v t HF) as (out' & E & H1 & H2). rewrite H in E. inv E.
    assert (HN : forall q k cs, sub out' q = Some (Node k cs) <-> exists cs', length cs' = length cs /\ sub t q = Some (Node k cs') /\ sub out' q = Some (Node k cs)).
    { intros q k cs. split; [|intros (? & ? & ? & ?); auto]. intros Hs.
      assert (~ is_flag attr t q) as HNF by (intros X; rewrite (H1 q X) in Hs; discriminate).
      specialize (H2 q HNF). unfold label_at in H2. rewrite Hs in H2. destruct (sub t q) as [u|]; [|discriminate].
      cbn in H2. destruct u; inv H2. exists cs0. auto. }
    assert (HN' : forall q k cs, sub t q = Some (Node k cs) -> exists cs', sub out' q = Some (Node k cs')).
    { intros q k cs Hs. assert (~ is_flag attr t q) as HNF.
      { intros X. destruct (flag_leaf t q HF X) as [a Ha]. congruence. }
      specialize (H2 q HNF). unfold label_at in H2. rewrite Hs in H2. destruct (sub out' q) as [u|]; [|discriminate].
      cbn in H2. destruct u; inv H2. eauto. }
    assert (HI : forall p, is_flag attr out' p <-> is_flag attr t p).
    { intros p. split; intros (q & k & cs & i & -> & Hs & HA).
      - apply HN in Hs as (cs' & _ & Hs & _). exists q, k, cs', i; auto.
      - apply HN' in Hs as (cs' & Hs). exists q, k, cs', i; auto. }
    split; auto. intros q k cs i Hs HA.
    assert (is_flag attr t (q ++ [i])) as X by (apply HI; exists q, k, cs, i; auto).
    apply H1 in X. rewrite sub_app, Hs in X. cbn in X. destruct (nth_error cs i) as [c|]; [|discriminate]. exists v. congruence.
  Qed.
  Lemma mode_twice v w (t : tree A) out : flags_are_leaves attr t -> inference_mode aeq attr v t = Ok out ->
    inference_mode aeq attr w out = inference_mode aeq attr w t.
  Proof.
    intros HF H. destruct (mode_flags v t out HF H) as [HF' HI].
    destruct (inference_spec v t HF) as (out' & E & H1 & H2). rewrite H in E. inv E.
    destruct (inference_spec w t HF) as (o1 & -> & A1 & A2).
    destruct (inference_spec w out' HF') as (o2 & -> & B1 & B2). f_equal.
    apply label_ext. intros q.
    destruct (in_dec (list_eq_dec Nat.eq_dec) q (flag_paths t)) as [Hin|Hin].
    - apply flag_iff in Hin as [Hq _]. unfold label_at. rewrite (A1 q Hq), (B1 q (proj2 (HI q) Hq)). auto.
    - assert (~ is_flag attr t q) as HN.
      { intros X. apply Hin, flag_iff. split; auto. destruct (flag_leaf t q HF X) as [a Ha]. congruence. }
      rewrite A2, B2, H2; auto. rewrite HI; auto.
  Qed.
End Inference.
