From Verif Require Export TreeAt_Proofs2.

Lemma prefix_comparable p q r : prefix p r -> prefix q r -> prefix p q \/ prefix q p.
Proof.
  revert q r; induction p as [|i p IH]; intros q r H1 H2; [left; apply prefix_nil|].
  destruct q as [|j q]; [right; apply prefix_nil|].
  destruct r as [|k r]; [apply prefix_of_nil in H1; discriminate|].
  apply prefix_cons in H1 as [-> H1]. apply prefix_cons in H2 as [-> H2].
  destruct (IH _ _ H1 H2); [left|right]; apply prefix_cons; auto.
Qed.
Lemma prefix_app p q : prefix p (p ++ q). Proof. exists q; auto. Qed.

Lemma sub_strict {A} (t : tree A) q p s : strict_prefix q p -> sub t p = Some s ->
  exists k cs, sub t q = Some (Node k cs).
Proof.
  intros (i & r & ->) H. rewrite sub_app in H. destruct (sub t q) as [u|]; [|discriminate].
  cbn in H. destruct u; try discriminate. eauto.
Qed.

(** Subtrees that are not touched. *)
Lemma label_sub {A} (t u : tree A) p : (forall q, label_at t (p ++ q) = label_at u (p ++ q)) -> sub t p = sub u p.
Proof.
  intros H. pose proof (H []) as H0. rewrite app_nil_r in H0. unfold label_at in H0.
  destruct (sub t p) as [s|] eqn:E1, (sub u p) as [v|] eqn:E2; cbn in H0; try discriminate; auto.
  f_equal. apply label_ext. intros q. specialize (H q). unfold label_at in H.
  rewrite !sub_app, E1, E2 in H. exact H.
Qed.
Lemma edited_untouched {A} (t : tree A) e o p : edited t e o ->
  (forall q r, In (q, r) e -> ~ prefix p q /\ ~ prefix q p) -> sub o p = sub t p.
Proof.
  intros [_ H2] HD. apply label_sub. intros q. apply H2. intros p' r Hin HP.
  destruct (HD _ _ Hin) as [N1 N2]. destruct (prefix_comparable _ _ _ HP (prefix_app p q)); auto.
Qed.
Lemma edited_compose {A} (t : tree A) e1 o1 e2 o2 : edited t e1 o1 -> edited o1 e2 o2 ->
  (forall p r q s, In (p, r) e1 -> In (q, s) e2 -> ~ prefix p q /\ ~ prefix q p) ->
  edited t (e1 ++ e2) o2.
Proof.
  intros [H1 H2] [H3 H4] HD. split.
  - intros p r Hin. apply in_app_iff in Hin as [Hin|Hin]; auto.
    rewrite (edited_untouched o1 e2 o2 p); [auto|split; auto|].
    intros q s Hq. eapply HD; eauto.
  - intros q Hq. rewrite H4, H2; auto; intros p r Hin; apply (Hq p r), in_app_iff; auto.
Qed.
Lemma edited_perm {A} (t : tree A) e e' o : (forall x, In x e <-> In x e') -> edited t e o -> edited t e' o.
Proof.
  intros HE [H1 H2]. split.
  - intros p r Hin. apply H1, HE; auto.
  - intros q Hq. apply H2. intros p r Hin. apply (Hq p r), HE; auto.
Qed.

Section Sel.
  Context {A : Type} (aeq : A -> A -> bool) (uisl : tree A -> bool).
  Hypothesis aeq_refl : forall a, aeq a a = true.
  Notation isl := (by_value uisl).
  Notation D := (D uisl).
  Notation isbare := (isbare uisl).

  Variable t : tree A.
  Variable l : list (path * tree A).
  Hypothesis Hsub : forall p s, In (p, s) l -> sub t p = Some s.
  Hypothesis Hvis : forall p s, In (p, s) l -> visible uisl t p.

  Definition nodes := map (fun ps => D (rev (fst ps)) (snd ps)) l.
  Variable fs : list (pyobj A -> res (pyobj A)).
  Hypothesis Hlen : length fs = length l.
  Definition dict := List.combine nodes fs.

  Lemma dict_keys : map fst dict = nodes.
  Proof.
    unfold dict, nodes. clear Hsub Hvis. revert fs Hlen; induction l as [|x l' IH]; intros [|f fs'] H; cbn in *; try discriminate; auto.
    f_equal; auto.
  Qed.
  Lemma contains_keys x : contains aeq dict x = existsb (fun n => same aeq n x) nodes.
  Proof.
    rewrite <- dict_keys. unfold contains. induction dict as [|[n f] d IH]; cbn; auto. rewrite IH; auto.
  Qed.
  Lemma isbare_iff s : isbare s = true <-> s = TNone /\ uisl TNone = false.
  Proof.
    destruct s; cbn; split; try discriminate; try (intros [? ?]; discriminate).
    - intros H; apply negb_true_iff in H; auto.
    - intros [_ ->]; auto.
  Qed.

  Lemma contains_iff q s : sub t q = Some s ->
    contains aeq dict (D (rev q) s) = true <->
    In (q, s) l \/ (isbare s = true /\ exists p u, In (p, u) l /\ isbare u = true).
  Proof.
    intros Hq. rewrite contains_keys, existsb_exists. unfold nodes. split.
    - intros (n & Hn & HS). apply in_map_iff in Hn as ([p u] & <- & Hin). cbn in HS.
      apply same_D in HS as [[B1 B2]|(B1 & B2 & E)].
      + right. eauto.
      + apply (f_equal (@rev nat)) in E. rewrite !rev_involutive in E. subst. left.
        rewrite (Hsub _ _ Hin) in Hq. inv Hq. auto.
    - intros [Hin|(B & p & u & Hin & B2)].
      + exists (D (rev q) s). split; [apply in_map_iff; exists (q, s); auto|]. apply same_refl; auto.
      + exists (D (rev p) u). split; [apply in_map_iff; exists (p, u); auto|].
        apply same_bare; auto.
  Qed.

  Definition nested (q : path) : Prop := exists p s, In (p, s) l /\ strict_prefix p q.
  Definition V (q : path) (s : tree A) : Prop :=
    visible uisl t q /\ sub t q = Some s /\ ~ nested q /\
    (In (q, s) l \/ (isbare s = true /\ exists p u, In (p, u) l /\ isbare u = true)).

  Lemma vis_sel q x : In (q, x) (vis aeq dict (D [] t)) <-> exists s, V q s /\ x = D (rev q) s.
  Proof.
    rewrite vis_D. split.
    - intros (s & HV & Hs & -> & HC & HN). rewrite app_nil_r in *. exists s. split; auto.
      split; [auto|]. split; [auto|]. split; [|apply contains_iff; auto].
      intros (p & u & Hin & HP). specialize (HN p u HP (Hsub _ _ Hin)). rewrite app_nil_r in HN.
      assert (contains aeq dict (D (rev p) u) = true) by (apply contains_iff; [apply Hsub|]; auto).
      congruence.
    - intros (s & (HV & Hs & HN & HI) & ->). exists s. split; [auto|]. split; [auto|].
      rewrite app_nil_r. split; [auto|]. split; [apply contains_iff; auto|].
      intros p u HP Hu. rewrite app_nil_r.
      destruct (contains aeq dict (D (rev p) u)) eqn:HC; auto. exfalso.
      apply contains_iff in HC as [Hin|(B & _)]; auto.
      + apply HN. exists p, u; auto.
      + apply isbare_iff in B as [-> _]. destruct (sub_strict t p q s HP Hs) as (k & cs & E). congruence.
  Qed.

  Lemma count_iff p s : In (p, s) l ->
    count aeq dict (D [] t) (D (rev p) s) = 1 <->
    (isbare s = false /\ ~ nested p) \/
    (isbare s = true /\ exists q, visible uisl t q /\ sub t q = Some TNone /\ ~ nested q /\
       forall q', visible uisl t q' -> sub t q' = Some TNone -> ~ nested q' -> q' = q).
  Proof.
    intros Hin. unfold count. rewrite <- vis_visited, filter_one_iff by apply vis_disjoint.
    split.
    - intros (q & x & Hq & HS & HU). apply vis_sel in Hq as (u & (HV & Hu & HN & HI) & ->).
      apply same_D in HS as [[B1 B2]|(B1 & B2 & E)].
      + right. split; auto. apply isbare_iff in B2 as [-> HB]. exists q.
        split; [auto|]. split; [auto|]. split; [auto|]. intros q' HV' Hs' HN'.
        apply (HU q' (D (rev q') TNone)).
        * apply vis_sel. exists TNone. split; auto. split; [auto|]. split; [auto|]. split; [auto|].
          right. split; [cbn; rewrite HB; auto|]. eauto.
        * apply same_bare; auto. cbn; rewrite HB; auto.
      + left. split; auto. apply (f_equal (@rev nat)) in E. rewrite !rev_involutive in E. subst. auto.
    - intros [[B HN]|(B & q & HV & Hs & HN & HU)].
      + exists p, (D (rev p) s). split; [|split].
        * apply vis_sel. exists s. split; auto. split; [eapply Hvis; eauto|]. split; [auto|]. split; auto.
        * apply same_refl; auto.
        * intros q y Hq HS. apply vis_sel in Hq as (u & _ & ->).
          apply same_D in HS as [[B1 B2]|(B1 & B2 & E)]; [congruence|].
          apply (f_equal (@rev nat)) in E. rewrite !rev_involutive in E. auto.
      + apply isbare_iff in B as [-> HB]. exists q, (D (rev q) TNone). split; [|split].
        * apply vis_sel. exists TNone. split; auto. split; [auto|]. split; [auto|]. split; [auto|].
          right. split; [cbn; rewrite HB; auto|]. exists p, TNone. split; auto. cbn; rewrite HB; auto.
        * apply same_bare; cbn; rewrite HB; auto.
        * intros q' y Hq HS. apply vis_sel in Hq as (u & (HV' & Hu & HN' & _) & ->).
          apply same_D in HS as [[B1 B2]|(B1 & B2 & E)]; [|cbn in B1; rewrite HB in B1; discriminate].
          apply isbare_iff in B2 as [-> _]. auto.
  Qed.

  Definition good_selection : Prop := forall p s, In (p, s) l ->
    (isbare s = false /\ ~ nested p) \/
    (isbare s = true /\ exists q, visible uisl t q /\ sub t q = Some TNone /\ ~ nested q /\
       forall q', visible uisl t q' -> sub t q' = Some TNone -> ~ nested q' -> q' = q).

  Lemma counts_iff : (forall n, In n (map fst dict) -> count aeq dict (D [] t) n = 1) <-> good_selection.
  Proof.
    rewrite dict_keys. unfold nodes. split.
    - intros H p s Hin. apply count_iff; auto. apply H. apply in_map_iff. exists (p, s); auto.
    - intros H n Hn. apply in_map_iff in Hn as ([p s] & <- & Hin). apply count_iff; auto.
  Qed.

  Lemma dressed_D : dressed (D [] t) = true.
  Proof. apply dressed_copy2, leaks_copy1. Qed.
  Lemma erase_D rp s : erase (D rp s) = s.
  Proof. unfold TreeAt_Proofs2.D. rewrite erase_copy2, erase_copy1; auto. Qed.
End Sel.

(** [replace] values on selected positions. *)
Section Vals.
  Context {A : Type} (aeq : A -> A -> bool) (uisl : tree A -> bool).
  Hypothesis aeq_refl : forall a, aeq a a = true.
  Notation isl := (by_value uisl).
  Notation D := (D uisl).
  Notation isbare := (isbare uisl).
  Notation const := (fun (r : tree A) (_ : pyobj A) => Ok (embed r)).

  Variable t : tree A.
  Variable l : list (path * tree A).
  Hypothesis Hsub : forall p s, In (p, s) l -> sub t p = Some s.
  Hypothesis Hvis : forall p s, In (p, s) l -> visible uisl t p.
  Variable rs : list (tree A).
  Hypothesis Hlen : length rs = length l.
  Notation dd := (dict uisl l (map const rs)).
  Let Hlen' : length (map const rs) = length l.
  Proof. rewrite map_length; auto. Qed.

  Lemma vals_ok : exists y, replace_all aeq dd (D [] t) = Ok y.
  Proof.
    apply replace_all_ok; [apply dressed_D|].
    intros p x Hin. assert (HC : contains aeq dd x = true).
    { apply vis_sel in Hin as (s & (HV & Hs & HN & HI) & ->); auto. apply contains_iff with (t := t); auto. }
    apply lookup_contains in HC as [f Hf]. pose proof Hf as Hf'.
    apply lookup_In in Hf' as (n & Hn & _). unfold dict in Hn. apply in_combine_r in Hn.
    apply in_map_iff in Hn as (r & <- & _). eauto.
  Qed.
  Lemma vals_leaks y : replace_all aeq dd (D [] t) = Ok y -> leaks y = false.
  Proof.
    intros H. eapply replace_all_leaks; [apply dressed_D|exact H|].
    intros p s f r _ Hf Hr. apply lookup_In in Hf as (n & Hn & _). unfold dict in Hn. apply in_combine_r in Hn.
    apply in_map_iff in Hn as (r' & <- & _). inv Hr. apply leaks_embed.
  Qed.

  (** The dictionary is keyed by position when no [None] is involved. *)
  Lemma lookup_last q s : (forall p u, In (p, u) l -> same aeq (D (rev p) u) (D (rev q) s) = true <-> p = q) ->
    lookup aeq dd (D (rev q) s) = option_map const (last_for q (List.combine (map fst l) rs)).
  Proof.
    unfold dict, nodes. clear Hsub Hvis Hlen'. revert rs Hlen.
    induction l as [|[p u] l' IH]; intros [|r rs'] HL H; cbn in HL |- *; try discriminate; auto.
    rewrite IH; [|congruence|intros; apply H; right; auto].
    destruct (last_for q (List.combine (map fst l') rs')); cbn; auto.
    specialize (H p u (or_introl eq_refl)).
    destruct (list_eq_dec Nat.eq_dec q p) as [E|N].
    - destruct (same aeq _ _) eqn:ES; auto. assert (p = q) by auto. apply H in H0. congruence.
    - destruct (same aeq _ _) eqn:ES; auto. assert (p = q) by (apply H; auto). congruence.
  Qed.

  (** Without nested selections each selected position gets the last value for it. *)
  Lemma vals_spec y : replace_all aeq dd (D [] t) = Ok y -> good_selection uisl t l ->
    (forall p s, In (p, s) l -> ~ nested l p) ->
    (forall p s, In (p, s) l -> sub (erase y) p = last_for p (List.combine (map fst l) rs)) /\
    (forall q, (forall p s, In (p, s) l -> ~ prefix p q) -> label_at (erase y) q = label_at t q).
  Proof.
    intros HR HG HN. destruct (replace_all_spec _ _ _ _ HR) as [H1 H2].
    assert (HU : forall p s q u, In (p, s) l -> V uisl t l q u -> isbare s = true -> isbare u = true -> p = q).
    { intros p s q u Hp (HV & Hu & HNq & _) B1 B2.
      destruct (HG p s Hp) as [[B _]|(_ & q0 & _ & _ & _ & HU)]; [congruence|].
      apply isbare_iff in B1 as [-> _], B2 as [-> _].
      transitivity q0; [|symmetry]; apply HU; eauto. }
    split.
    - intros p s Hin. assert (HVp : V uisl t l p s) by (split; [eauto|split; [eauto|split; eauto]]).
      destruct (H1 p (D (rev p) s)) as (f & r & Hf & Hr & Hs).
      { apply vis_sel; auto. exists s; auto. }
      rewrite lookup_last in Hf.
      + destruct (last_for p (List.combine (map fst l) rs)) as [v|]; cbn in Hf; inv Hf. inv Hr.
        rewrite Hs, erase_embed; auto.
      + intros q u Hq. split.
        * intros HS. apply same_D in HS as [[B1 B2]|(B1 & B2 & E)].
          -- eapply HU; eauto.
          -- apply (f_equal (@rev nat)) in E. rewrite !rev_involutive in E. auto.
        * intros ->. assert (u = s) as ->; [|apply same_refl; auto].
          pose proof (Hsub _ _ Hq). pose proof (Hsub _ _ Hin). congruence.
    - intros q Hq. rewrite H2; [rewrite erase_D; auto|].
      intros p x Hin HP. apply vis_sel in Hin as (s & HVp & ->); auto.
      pose proof HVp as (HV & Hs & HNp & [Hin|(B & p' & u & Hp' & B')]).
      + eapply Hq; eauto.
      + assert (p' = p) by exact (HU p' u p s Hp' HVp B' B). subst. eapply Hq; eauto.
  Qed.

  (** Whatever is visited gets a value that was given for a node indistinguishable from it. *)
  Lemma vals_any y : replace_all aeq dd (D [] t) = Ok y ->
    forall q s, V uisl t l q s -> exists n u r, nth_error l n = Some u /\ nth_error rs n = Some r /\
      sub (erase y) q = Some r /\ snd u = s.
  Proof.
    intros HR q s HVq. destruct (replace_all_spec _ _ _ _ HR) as [H1 _].
    destruct (H1 q (D (rev q) s)) as (f & r & Hf & Hr & Hs).
    { apply vis_sel; auto. exists s; auto. }
    apply lookup_In in Hf as (n & Hn & HS). unfold dict, nodes in Hn.
    apply In_nth_error in Hn as [i Hi].
    assert (Hi' : exists u r', nth_error l i = Some u /\ nth_error rs i = Some r' /\ n = D (rev (fst u)) (snd u) /\ f = const r').
    { clear -Hi Hlen. revert rs i Hlen Hi. induction l as [|u l' IH]; intros [|r' rs'] [|i] HL Hi; cbn in HL, Hi; try discriminate.
      - inv Hi. exists u, r'; auto.
      - destruct (IH rs' i) as (u1 & r1 & ? & ? & ? & ?); [congruence|exact Hi|]. exists u1, r1; auto. }
    destruct Hi' as (u & r' & Hu & Hr' & -> & ->). inv Hr.
    exists i, u, r'. split; [auto|]. split; [auto|]. split; [rewrite Hs, erase_embed; auto|].
    destruct u as [p u]. cbn in *. destruct HVq as (_ & Hq & _).
    apply same_D in HS as [[B1 B2]|(B1 & B2 & E)].
    - apply isbare_iff in B1 as [-> _], B2 as [-> _]. auto.
    - apply (f_equal (@rev nat)) in E. rewrite !rev_involutive in E. subst.
      apply nth_error_In, Hsub in Hu. congruence.
  Qed.
End Vals.
