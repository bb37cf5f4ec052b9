From Verif Require Export TreeAt_Proofs4.

Lemma last_for_In {V} p (l : list (path * V)) v : last_for p l = Some v -> In (p, v) l.
Proof.
  induction l as [|[q w] l IH]; cbn; [discriminate|]. destruct (last_for p l).
  - intros E; inv E. auto.
  - destruct (list_eq_dec Nat.eq_dec p q); [|discriminate]. intros E; inv E. auto.
Qed.
Lemma last_for_NoDup {V} p (l : list (path * V)) v : NoDup (map fst l) -> In (p, v) l -> last_for p l = Some v.
Proof.
  induction l as [|[q w] l IH]; cbn; [tauto|]. intros HN [E|Hin]; inv HN.
  - inv E. destruct (last_for p l) as [v'|] eqn:EL.
    + exfalso. apply H1. apply in_map_iff. exists (p, v'); split; auto. apply last_for_In; auto.
    + destruct (list_eq_dec Nat.eq_dec p p); congruence.
  - rewrite IH; auto.
Qed.

Section Final.
  Context {A : Type} (aeq : A -> A -> bool) (uisl : tree A -> bool).
  Hypothesis aeq_refl : forall a, aeq a a = true.
  Notation isl := (by_value uisl).
  Variable t : tree A.

  Lemma many_ok_sel ps r f out : tree_at aeq isl (where_many ps) t r f = Ok out ->
    exists l, selected uisl t l /\ map fst l = ps /\ uisl (Node ktuple (map snd l)) = false.
  Proof.
    intros H. pose proof (tree_at_inv _ _ _ _ _ _ _ H) as (n1 & n2 & d & y & H1 & H2 & H3 & _).
    apply where_many_sel in H2 as (l & HS & HF & -> & E1). exists l. split; [auto|]. split; [auto|].
    rewrite E1 in H1. inv H1.
    destruct (uisl (Node ktuple (map snd l))) eqn:EU; auto. exfalso.
    unfold check_where in H3. apply bind_ok in H3 as (l2 & _ & H3).
    assert (pdef isl (PNode (3, []) ktuple (map (fun x => copy1 (rev (fst x)) (snd x)) l)) = Leaf tt) as E.
    { cbn. assert (isl (PNode (3, []) ktuple (map (fun x => copy1 (rev (fst x)) (snd x)) l)) = true) as ->; auto.
      unfold by_value. cbn. rewrite map_map.
      erewrite map_ext; [exact EU|]. intros; apply erase_copy1. }
    rewrite E in H3. cbn in H3. discriminate.
  Qed.
  Lemma one_ok_sel p r f out : tree_at aeq isl (where_one p) t r f = Ok out ->
    exists s, selected uisl t [(p, s)].
  Proof.
    intros H. apply tree_at_inv in H as (n1 & n2 & d & y & H1 & H2 & H3 & _).
    apply where_one_sel in H2 as (s & HS & _). eauto.
  Qed.

  Lemma many_vals_inv k ps rs out : tree_at aeq isl (where_many ps) t (Some (Node k rs)) None = Ok out ->
    exists l y, selected uisl t l /\ map fst l = ps /\ length rs = length l /\ good_selection uisl t l /\
      replace_all aeq (dict uisl l (map (fun r _ => Ok (embed r)) rs)) (D uisl [] t) = Ok y /\ out = erase y.
  Proof.
    intros H. destruct (many_ok_sel _ _ _ _ H) as (l & HS & <- & HU).
    rewrite tree_at_many in H by auto. apply bind_ok in H as (d & Hd & H).
    assert (Hk : is_seq k = true).
    { destruct (is_seq k) eqn:E; auto. unfold fns_of, seq_vals in Hd. rewrite E in Hd. cbn in Hd. discriminate. }
    rewrite fns_vals in Hd by auto. destruct (Nat.eqb_spec (length l) (length rs)) as [EL|]; [|discriminate].
    inv Hd. pose proof (proj1 (run_vals aeq uisl aeq_refl t l rs HS (eq_sym EL)) (ex_intro _ _ H)) as HG.
    apply run_inv in H as (y & Hy & ->). exists l, y. split; [auto|split; [auto|split; [auto|split; auto]]].
  Qed.

  Lemma put_get_last k ps rs out : tree_at aeq isl (where_many ps) t (Some (Node k rs)) None = Ok out ->
    (forall p q, In p ps -> In q ps -> ~ strict_prefix p q) ->
    length rs = length ps /\
    (forall p, In p ps -> sub out p = last_for p (List.combine ps rs)) /\
    (forall q, (forall p, In p ps -> ~ prefix p q) -> label_at out q = label_at t q).
  Proof.
    intros H HN. apply many_vals_inv in H as (l & y & [S1 S2] & <- & HL & HG & HR & ->).
    rewrite map_length. split; auto.
    destruct (vals_spec aeq uisl aeq_refl t l S1 S2 rs HL y HR HG) as [H1 H2].
    { intros p s Hin (q & u & Hq & HP). eapply HN; [| |exact HP]; apply in_map_iff; [exists (q, u)|exists (p, s)]; auto. }
    split.
    - intros p Hp. apply in_map_iff in Hp as ([p' s] & <- & Hin). eauto.
    - intros q Hq. apply H2. intros p s Hin. apply Hq. apply in_map_iff. exists (p, s); auto.
  Qed.

  Lemma put_get_many k ps rs out : tree_at aeq isl (where_many ps) t (Some (Node k rs)) None = Ok out ->
    NoDup ps -> (forall p q, In p ps -> In q ps -> ~ strict_prefix p q) ->
    length rs = length ps /\ edited t (List.combine ps rs) out.
  Proof.
    intros H HD HN. destruct (put_get_last _ _ _ _ H HN) as (HL & H1 & H2). split; auto. split.
    - intros p r Hin. rewrite H1 by (eapply in_combine_l; eauto).
      apply last_for_NoDup; auto. rewrite map_combine_fst; auto.
    - intros q Hq. apply H2. intros p Hp HP. apply In_nth_error in Hp as [i Hi].
      destruct (nth_error_ge_ex rs i) as [r Hr]; [rewrite HL; eapply nth_error_lt; eauto|].
      eapply (Hq p r); eauto.
      clear -Hi Hr. revert rs i Hi Hr; induction ps as [|p' ps IH]; intros [|r' rs] [|i] Hi Hr; cbn in *; try discriminate.
      + inv Hi; inv Hr; auto.
      + right; eauto.
  Qed.

  Lemma put_get_one p r out : tree_at aeq isl (where_one p) t (Some r) None = Ok out -> edited t [(p, r)] out.
  Proof.
    intros H. destruct (one_ok_sel _ _ _ _ H) as (s & HS). rewrite (tree_at_one aeq uisl aeq_refl t p s) in H by auto.
    rewrite fns_val in H. cbn [bind] in H.
    pose proof (proj1 (run_vals aeq uisl aeq_refl t [(p, s)] [r] HS eq_refl) (ex_intro _ _ H)) as HG.
    apply run_inv in H as (y & Hy & ->). destruct HS as [S1 S2].
    destruct (vals_spec aeq uisl aeq_refl t [(p, s)] S1 S2 [r] eq_refl y Hy HG) as [H1 H2].
    { intros q u [E|[]] (q' & u' & [E'|[]] & HP). inv E; inv E'. eapply strict_prefix_irrefl; eauto. }
    split.
    - intros q v [E|[]]. inv E. rewrite (H1 q s) by (left; auto). cbn.
      destruct (list_eq_dec Nat.eq_dec q q); congruence.
    - intros q Hq. apply H2. intros p' s' [E|[]]. inv E. apply (Hq p' r). left; auto.
  Qed.

  (** When it succeeds. *)
  Definition no_strict (ps : list path) (q : path) : Prop := forall p, In p ps -> ~ strict_prefix p q.
  Definition acceptable (ps : list path) : Prop := forall p, In p ps ->
    visible uisl t p /\
    (~ bare_none uisl t p -> no_strict ps p) /\
    (bare_none uisl t p -> exists q, bare_none uisl t q /\ no_strict ps q /\
       forall q', bare_none uisl t q' -> no_strict ps q' -> q' = q).

  Lemma nested_iff (l : list (path * tree A)) q : ~ nested l q <-> no_strict (map fst l) q.
  Proof.
    split.
    - intros H p Hp HP. apply in_map_iff in Hp as ([p' s] & <- & Hin). apply H. exists p', s; auto.
    - intros H (p & s & Hin & HP). eapply H; eauto. apply in_map_iff. exists (p, s); auto.
  Qed.

  Lemma good_acceptable l : selected uisl t l -> good_selection uisl t l <-> acceptable (map fst l).
  Proof.
    intros [S1 S2].
    assert (HB : forall p s, sub t p = Some s -> visible uisl t p -> (isbare uisl s = true <-> bare_none uisl t p)).
    { intros p s Hs HV. rewrite isbare_iff. unfold bare_none. rewrite Hs. split.
      - intros [-> ?]; auto.
      - intros (_ & E & ?). inv E; auto. }
    split.
    - intros HG p Hp. apply in_map_iff in Hp as ([p' s] & <- & Hin). cbn.
      split; [eauto|]. pose proof (HB p' s (S1 _ _ Hin) (S2 _ _ Hin)) as HBp.
      destruct (HG _ _ Hin) as [[B HN]|(B & q & HV & Hs & HN & HU)].
      + split; [intros _; apply nested_iff; auto|]. intros HBN. apply HBp in HBN. congruence.
      + apply HBp in B as BN. split; [tauto|]. intros _. exists q.
        pose proof BN as (_ & _ & HI).
        split; [split; auto|]. split; [apply nested_iff; auto|].
        intros q' (HV' & Hs' & _) HN'. apply HU; auto. apply nested_iff; auto.
    - intros HA p s Hin. destruct (HA p) as (HV & HN & HQ); [apply in_map_iff; exists (p, s); auto|].
      pose proof (HB p s (S1 _ _ Hin) HV) as HBp.
      destruct (isbare uisl s) eqn:B.
      + right. split; auto. destruct HQ as (q & (HV' & Hs' & HI) & HNq & HU); [apply HBp; auto|].
        exists q. split; [auto|]. split; [auto|]. split; [apply nested_iff; auto|].
        intros q' HV2 Hs2 HN2. apply HU; [split; auto|apply nested_iff; auto].
      + left. split; auto. apply nested_iff. apply HN. intros HBN. apply HBp in HBN. congruence.
  Qed.

  Lemma make_selected ps : (forall p, In p ps -> visible uisl t p) ->
    exists l, selected uisl t l /\ map fst l = ps.
  Proof.
    induction ps as [|p ps IH]; intros H.
    - exists []. split; [split; intros ? ? []|auto].
    - destruct IH as (l & [S1 S2] & HF); [intros; apply H; right; auto|].
      destruct (visible_sub uisl t p) as [s Hs]; [apply H; left; auto|].
      exists ((p, s) :: l). split; [|cbn; congruence].
      split; intros q u [E|Hin]; [inv E; auto|eauto|inv E; apply H; left; auto|eauto].
  Qed.
  Lemma selected_Forall2 l : selected uisl t l -> Forall2 (fun p s => sub t p = Some s) (map fst l) (map snd l).
  Proof.
    intros [S1 _]. induction l as [|[p s] l IH]; cbn; auto. constructor; [apply S1; left; auto|].
    apply IH. intros; apply S1; right; auto.
  Qed.

  Lemma many_iff k ps rs : is_seq k = true ->
    (forall ss, Forall2 (fun p s => sub t p = Some s) ps ss -> uisl (Node ktuple ss) = false) ->
    (exists out, tree_at aeq isl (where_many ps) t (Some (Node k rs)) None = Ok out) <->
    length rs = length ps /\ acceptable ps.
  Proof.
    intros Hk HU. split.
    - intros [out H]. apply many_vals_inv in H as (l & y & HS & <- & HL & HG & _).
      rewrite map_length. split; auto. apply good_acceptable; auto.
    - intros [HL HA]. destruct (make_selected ps) as (l & HS & <-); [intros p Hp; apply HA; auto|].
      rewrite map_length in HL. rewrite tree_at_many, fns_vals by (auto using selected_Forall2).
      rewrite HL, Nat.eqb_refl. cbn [bind]. apply run_vals; auto. apply good_acceptable; auto.
  Qed.
  Lemma one_iff p r :
    (exists out, tree_at aeq isl (where_one p) t (Some r) None = Ok out) <->
    visible uisl t p /\ (bare_none uisl t p -> forall q, bare_none uisl t q -> q = p).
  Proof.
    assert (HA : acceptable [p] <-> visible uisl t p /\ (bare_none uisl t p -> forall q, bare_none uisl t q -> q = p)).
    { assert (HNS : forall q, bare_none uisl t p -> bare_none uisl t q -> no_strict [p] q).
      { intros q (_ & Hs & _) (_ & Hq & _) p' [<-|[]] HP.
        destruct (sub_strict t p q _ HP Hq) as (k & cs & E). congruence. }
      split.
      - intros H. destruct (H p (or_introl eq_refl)) as (HV & _ & HB). split; auto.
        intros HBp q Hq. destruct (HB HBp) as (q0 & H0 & HN0 & HU).
        rewrite (HU q) by auto. symmetry. apply HU; auto.
      - intros [HV HB] p' [<-|[]]. split; [auto|]. split.
        + intros _ p' [<-|[]]. apply strict_prefix_irrefl.
        + intros HBp. exists p. split; [auto|]. split; [auto|]. intros; auto. }
    rewrite <- HA. split.
    - intros [out H]. destruct (one_ok_sel _ _ _ _ H) as (s & HS). change [p] with (map fst [(p, s)]).
      apply good_acceptable; auto. apply (run_vals aeq uisl aeq_refl t [(p, s)] [r]); auto.
      rewrite (tree_at_one aeq uisl aeq_refl t p s), fns_val in H by auto. eauto.
    - intros H. destruct (make_selected [p]) as (l & HS & HF); [intros q Hq; apply H; auto|].
      destruct l as [|[p' s] [|]]; try discriminate HF. injection HF as HF. cbn [fst] in HF. subst p'.
      rewrite (tree_at_one aeq uisl aeq_refl t p s), fns_val by auto. cbn [bind].
      apply (run_vals aeq uisl aeq_refl t [(p, s)] [r]); auto. apply good_acceptable; auto.
  Qed.

  (** [replace_fn] *)
  Lemma fn_many g ps ss rs : Forall2 (fun p s => sub t p = Some s) ps ss -> mapM g ss = Ok rs ->
    uisl (Node ktuple ss) = false -> (forall p, In p ps -> visible uisl t p) ->
    tree_at aeq isl (where_many ps) t None (Some (fn_by_value g)) =
    tree_at aeq isl (where_many ps) t (Some (Node ktuple rs)) None.
  Proof.
    intros HF HM HU HV. pose proof (Forall2_len _ _ _ HF) as HL.
    set (l := List.combine ps ss).
    assert (E1 : map fst l = ps) by (apply map_combine_fst; auto).
    assert (E2 : map snd l = ss) by (apply map_combine_snd; auto).
    assert (HS : selected uisl t l).
    { split; intros p s Hin.
      - unfold l in Hin. clear -HF Hin. induction HF; cbn in Hin; [tauto|]. destruct Hin as [E|Hin]; [inv E; auto|auto].
      - apply HV. eapply in_combine_l; eauto. }
    clearbody l. subst ps ss. rewrite !(tree_at_many aeq uisl aeq_refl t l) by auto.
    rewrite fns_fn, fns_vals by auto.
    assert (length rs = length l) as HL2.
    { rewrite (mapM_length _ _ _ HM). apply map_length. }
    rewrite HL2, Nat.eqb_refl. cbn [bind]. apply run_fn; auto.
  Qed.
  Lemma fn_many_invisible ps r f : (exists p, In p ps /\ ~ visible uisl t p) ->
    forall out, tree_at aeq isl (where_many ps) t r f <> Ok out.
  Proof.
    intros (p & Hp & HV) out H. apply many_ok_sel in H as (l & [_ S2] & <- & _).
    apply in_map_iff in Hp as ([p' s] & <- & Hin). eauto.
  Qed.
  Lemma fn_one g p s r : sub t p = Some s -> visible uisl t p -> g s = Ok r ->
    tree_at aeq isl (where_one p) t None (Some (fn_by_value g)) =
    tree_at aeq isl (where_one p) t (Some r) None.
  Proof.
    intros Hs HV Hg.
    assert (HS : selected uisl t [(p, s)]) by (split; intros q u [E|[]]; inv E; auto).
    rewrite !(tree_at_one aeq uisl aeq_refl t p s), fns_fn1, fns_val by auto. cbn [bind].
    apply (run_fn aeq uisl aeq_refl t [(p, s)] g [r]); auto. cbn. rewrite Hg; auto.
  Qed.

  (** Replacing nodes by themselves. *)
  Lemma many_identity k ps ss out : Forall2 (fun p s => sub t p = Some s) ps ss ->
    tree_at aeq isl (where_many ps) t (Some (Node k ss)) None = Ok out -> out = t.
  Proof.
    intros HF H. apply many_vals_inv in H as (l & y & HS & <- & HL & HG & HR & ->).
    assert (ss = map snd l) as ->.
    { pose proof (selected_Forall2 l HS) as HF'. clear -HF HF'. revert HF HF'.
      generalize (map fst l) as ps, (map snd l) as us. intros ps us HF; revert us.
      induction HF; intros us HF'; inv HF'; auto. f_equal; [congruence|auto]. }
    pose proof (edits_edited aeq _ _ _ HR) as HE. rewrite erase_D in HE.
    eapply edited_unique; [exact HE|]. split; [|auto].
    intros p r Hin. apply (In_edits_of aeq _ _ _ _ _ HR) in Hin as (x & f & v & Hin & Hf & Hv & ->).
    destruct HS as [S1 S2].
    apply vis_sel in Hin as (s & HVp & ->); auto; [|rewrite !map_length; auto].
    destruct (vals_any aeq uisl aeq_refl t l S1 (map snd l) HL y HR p s HVp) as (n & u & r & Hu & Hr & Hs & Eu).
    rewrite nth_error_map, Hu in Hr. cbn in Hr. inv Hr.
    destruct (replace_all_spec _ _ _ _ HR) as [H1 _].
    destruct (H1 p (D uisl (rev p) (snd u))) as (f' & v' & Hf' & Hv' & Hs').
    { apply vis_sel; auto; [rewrite !map_length; auto|]. exists (snd u); auto. }
    rewrite Hf in Hf'. inv Hf'. rewrite Hv in Hv'. inv Hv'. rewrite Hs in Hs'. inv Hs'.
    destruct HVp as (_ & E & _). congruence.
  Qed.
End Final.

(** Two calls on unrelated positions commute. *)
Section Commute.
  Context {A : Type} (aeq : A -> A -> bool) (uisl : tree A -> bool).
  Hypothesis aeq_refl : forall a, aeq a a = true.
  Notation isl := (by_value uisl).

  Definition unrelated (ps qs : list path) : Prop :=
    forall p q, In p ps -> In q qs -> ~ prefix p q /\ ~ prefix q p.
  Definition separate (ps : list path) : Prop :=
    NoDup ps /\ forall p q, In p ps -> In q ps -> ~ strict_prefix p q.

  Lemma commute t ps rs qs ss o1 o12 o2 o21 :
    separate ps -> separate qs -> unrelated ps qs ->
    tree_at aeq isl (where_many ps) t (Some (Node ktuple rs)) None = Ok o1 ->
    tree_at aeq isl (where_many qs) o1 (Some (Node ktuple ss)) None = Ok o12 ->
    tree_at aeq isl (where_many qs) t (Some (Node ktuple ss)) None = Ok o2 ->
    tree_at aeq isl (where_many ps) o2 (Some (Node ktuple rs)) None = Ok o21 ->
    o12 = o21.
  Proof.
    intros [D1 N1] [D2 N2] HU H1 H12 H2 H21.
    apply put_get_many in H1 as [_ H1]; auto. apply put_get_many in H2 as [_ H2]; auto.
    apply put_get_many in H12 as [_ H12]; auto. apply put_get_many in H21 as [_ H21]; auto.
    assert (E1 : edited t (List.combine ps rs ++ List.combine qs ss) o12).
    { eapply edited_compose; eauto. intros p r q s Hp Hq.
      apply HU; eapply in_combine_l; eauto. }
    assert (E2 : edited t (List.combine qs ss ++ List.combine ps rs) o21).
    { eapply edited_compose; eauto. intros p r q s Hp Hq.
      destruct (HU q p); [eapply in_combine_l; eauto|eapply in_combine_l; eauto|]. split; auto. }
    eapply edited_unique; [exact E1|]. eapply edited_perm; [|exact E2].
    intros x. rewrite !in_app_iff. tauto.
  Qed.
End Commute.

(** Without [is_leaf], and when no [None] is selected, all four calls succeed. *)
Section CommuteTotal.
  Context {A : Type} (aeq : A -> A -> bool).
  Hypothesis aeq_refl : forall a, aeq a a = true.
  Notation isl := (by_value (@no_leaf A)).

  Lemma visible_no_leaf (t : tree A) p s : sub t p = Some s -> visible no_leaf t p.
  Proof.
    revert t; induction p as [|i p IH]; intros t H; [constructor|].
    cbn in H. destruct t; try discriminate. destruct (nth_error cs i) eqn:E; [|discriminate].
    econstructor; eauto.
  Qed.
  Definition selects_values (t : tree A) (ps : list path) : Prop :=
    forall p, In p ps -> exists s, sub t p = Some s /\ s <> TNone.

  Lemma values_ok t ps rs : separate ps -> selects_values t ps -> length rs = length ps ->
    exists o, tree_at aeq isl (where_many ps) t (Some (Node ktuple rs)) None = Ok o.
  Proof.
    intros [HD HN] HS HL. apply many_iff; auto. split; auto.
    intros p Hp. destruct (HS p Hp) as (s & Hs & HT). split; [eapply visible_no_leaf; eauto|].
    split; [intros _ q Hq; auto|]. intros (_ & E & _). congruence.
  Qed.
  Lemma untouched_values t ps rs o qs : separate ps -> unrelated ps qs ->
    tree_at aeq isl (where_many ps) t (Some (Node ktuple rs)) None = Ok o ->
    selects_values t qs -> selects_values o qs.
  Proof.
    intros [HD HN] HU H HS q Hq. apply put_get_many in H as [_ H]; auto.
    rewrite (edited_untouched t (List.combine ps rs) o q H); [auto|].
    intros p r Hin. destruct (HU p q); [eapply in_combine_l; eauto|auto|]. split; auto.
  Qed.
  Lemma commute_total t ps rs qs ss : separate ps -> separate qs -> unrelated ps qs ->
    selects_values t ps -> selects_values t qs -> length rs = length ps -> length ss = length qs ->
    exists o1 o2 o,
      tree_at aeq isl (where_many ps) t (Some (Node ktuple rs)) None = Ok o1 /\
      tree_at aeq isl (where_many qs) o1 (Some (Node ktuple ss)) None = Ok o /\
      tree_at aeq isl (where_many qs) t (Some (Node ktuple ss)) None = Ok o2 /\
      tree_at aeq isl (where_many ps) o2 (Some (Node ktuple rs)) None = Ok o.
  Proof.
    intros S1 S2 HU V1 V2 L1 L2.
    assert (HU' : unrelated qs ps) by (intros q p Hq Hp; destruct (HU p q Hp Hq); auto).
    destruct (values_ok t ps rs S1 V1 L1) as [o1 H1]. destruct (values_ok t qs ss S2 V2 L2) as [o2 H2].
    destruct (values_ok o1 qs ss S2) as [o12 H12]; auto.
    { eapply (untouched_values t ps rs); eauto. }
    destruct (values_ok o2 ps rs S1) as [o21 H21]; auto.
    { eapply (untouched_values t qs ss); eauto. }
    assert (o12 = o21) as <- by (eapply (commute aeq no_leaf aeq_refl t ps rs qs ss); eauto).
    exists o1, o2, o12; auto.
  Qed.
End CommuteTotal.
