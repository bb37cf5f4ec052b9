From Verif Require Export Shared_Spec TreeAt_Proofs5.

Section Shared.
  Context {A S : Type} (aeq : A -> A -> bool) (shared_node : A) (struct : A -> S) (seqb : S -> S -> bool).
  Hypothesis aeq_refl : forall a, aeq a a = true.
  Notation init := (shared_init aeq shared_node struct seqb).
  Notation call := (shared_call aeq).

  Lemma values_at_Forall2 ps (t : tree A) v : values_at ps t = Ok v ->
    exists vs, v = Node ktuple vs /\ Forall2 (fun p s => sub t p = Some s) ps vs.
  Proof.
    unfold values_at. intros H. apply rmap_ok in H as (vs & HM & ->). exists vs. split; auto.
    apply mapM_Forall2 in HM. induction HM as [|p s ps vs Hp _ IH]; constructor; auto.
    destruct (sub t p); [congruence|discriminate].
  Qed.
  Lemma tmap_Node_inv {B} (f : A -> B) t k ds : lmap f t = Node k ds ->
    exists cs, t = Node k cs /\ ds = map (lmap f) cs.
  Proof. destruct t; cbn; intros H; inv H. eauto. Qed.
  Lemma tree_eqb_shape k (eqb : S -> S -> bool) t ds : tree_eqb eqb t (Node k ds) = true ->
    exists cs, t = Node k cs /\ length cs = length ds.
  Proof.
    destruct t as [a| |k' cs]; cbn; try discriminate. intros H. apply andb_true_iff in H as [E H].
    apply Nat.eqb_eq in E. subst. exists cs. split; auto. revert ds H.
    induction cs as [|c cs IH]; intros [|d ds] H; try discriminate; auto.
    apply andb_true_iff in H as [_ H]. cbn. f_equal. auto.
  Qed.

  Lemma edited_selects (t : tree A) ps rs out : separate ps -> length rs = length ps ->
    edited t (List.combine ps rs) out -> (forall r, In r rs -> r <> TNone) -> selects_values out ps.
  Proof.
    intros _ HL [HE _] HN p Hp. apply In_nth_error in Hp as [i Hi].
    destruct (nth_error_ge_ex rs i) as [r Hr]; [rewrite HL; eapply nth_error_lt; eauto|].
    exists r. split; [|apply HN; eapply nth_error_In; eauto]. apply HE.
    clear -Hi Hr. revert rs i Hi Hr; induction ps as [|p' ps IH]; intros [|r' rs] [|i] Hi Hr; cbn in *; try discriminate.
    - inv Hi; inv Hr; auto.
    - right; eauto.
  Qed.

  Lemma edited_frame_get (t : tree A) ps rs out get : length rs = length ps -> ignores ps get ->
    edited t (List.combine ps rs) out -> get out = get t.
  Proof.
    intros HL HI [_ HF]. apply HI. intros q Hq. apply HF. intros p r Hin. apply Hq. eapply in_combine_l; eauto.
  Qed.

  Lemma edited_overwrite (t : tree A) ps rs out rs' out' : length rs = length ps -> length rs' = length ps ->
    edited t (List.combine ps rs) out -> edited out (List.combine ps rs') out' -> edited t (List.combine ps rs') out'.
  Proof.
    intros HL HL' [_ HF] [HE' HF']. split; auto.
    assert (HX : forall q, (forall p r, In (p, r) (List.combine ps rs') -> ~ prefix p q) ->
      forall p, In p ps -> ~ prefix p q).
    { intros q Hq p Hp. apply In_nth_error in Hp as [i Hi].
      destruct (nth_error_ge_ex rs' i) as [r Hr]; [rewrite HL'; eapply nth_error_lt; eauto|].
      apply (Hq p r). clear -Hi Hr.
      revert rs' i Hi Hr; induction ps as [|p' ps IH]; intros [|r' rs'] [|i] Hi Hr; cbn in *; try discriminate.
      - inv Hi; inv Hr; auto.
      - right; eauto. }
    intros q Hq. rewrite HF'; auto. apply HF. intros p r Hin. eapply HX; eauto. eapply in_combine_l; eauto.
  Qed.

  Lemma init_inv ps get t s : separate ps -> init ps get t = Ok s ->
    exists src dst vs, get t = Ok (Node ktuple vs) /\ length vs = length ps /\ values_at ps t = Ok (Node ktuple dst) /\
      src = Node ktuple vs /\ tree_eqb seqb (lmap struct src) (lmap struct (Node ktuple dst)) = true /\
      edited t (List.combine ps (map (fun _ => Leaf shared_node) ps)) s.
  Proof.
    intros [HD HN] H. unfold shared_init in H. apply bind_ok in H as (src & Hsrc & H).
    apply bind_ok in H as (dv & Hdst & H). destruct (tree_eqb _ _ _) eqn:E; cbn in H; [|discriminate].
    pose proof Hdst as Hdst'. apply values_at_Forall2 in Hdst' as (dst & -> & HF).
    pose proof E as E'. cbn [lmap] in E'. apply tree_eqb_shape in E' as (cs & Ecs & HLc).
    apply tmap_Node_inv in Ecs as (vs & -> & ->). rewrite !map_length in HLc.
    exists (Node ktuple vs), dst, vs. split; auto. split; [rewrite HLc; symmetry; eapply Forall2_len; eauto|].
    split; auto. split; auto. split; auto.
    change (fun _ : pyobj A => Ok (PLeaf shared_node)) with (fn_by_value (fun _ : tree A => Ok (Leaf shared_node))) in H.
    assert (HV : forall p, In p ps -> visible no_leaf t p).
    { intros p Hp. apply many_ok_sel in H as (l & [_ S2] & <- & _); auto.
      apply in_map_iff in Hp as ([p' u] & <- & Hin). eauto. }
    erewrite fn_many in H; eauto.
    2: { instantiate (1 := map (fun _ => Leaf shared_node) dst). clear. induction dst as [|d dst IH]; cbn; auto. rewrite IH; auto. }
    apply put_get_many in H as [HL H]; auto.
    replace (map (fun _ => Leaf shared_node) ps) with (map (fun _ : tree A => Leaf shared_node) dst); auto.
    clear -HF. induction HF; cbn; congruence.
  Qed.

  Lemma call_ok ps get t s : separate ps -> ignores ps get -> init ps get t = Ok s ->
    exists vs out, get t = Ok (Node ktuple vs) /\ length vs = length ps /\
      call ps get s = Ok out /\ edited t (List.combine ps vs) out.
  Proof.
    intros HS HI H. apply init_inv in H as (src & dst & vs & Hg & HL & Hd & -> & _ & HE); auto.
    assert (HGs : get s = Ok (Node ktuple vs)).
    { rewrite (edited_frame_get t ps (map (fun _ => Leaf shared_node) ps) s get); auto. apply map_length. }
    assert (HV : selects_values s ps).
    { apply (edited_selects t ps (map (fun _ => Leaf shared_node) ps) s); auto; [apply map_length|].
      intros r Hr. apply in_map_iff in Hr as (? & <- & _). discriminate. }
    destruct (values_ok aeq aeq_refl s ps vs HS HV HL) as [out Ho].
    exists vs, out. split; auto. split; auto. split; [unfold shared_call; rewrite HGs; auto|].
    apply put_get_many in Ho as [_ Ho]; try apply HS; auto.
    eapply edited_overwrite; [| |exact HE|exact Ho]; auto. rewrite map_length; auto.
  Qed.

  (** Updating the stored tree (by gradient descent, say) at the source positions. *)
  Lemma call_update ps qs t s ws s' : separate ps -> separate qs -> unrelated qs ps -> length ws = length ps ->
    init ps (values_at qs) t = Ok s ->
    tree_at aeq (by_value no_leaf) (where_many qs) s (Some (Node ktuple ws)) None = Ok s' ->
    exists out, call ps (values_at qs) s' = Ok out /\
      edited t (List.combine qs ws ++ List.combine ps ws) out.
  Proof.
    intros HS HQ HU HL H H'. apply init_inv in H as (src & dst & vs & Hg & HLv & Hd & -> & _ & HE); auto.
    apply put_get_many in H' as [HLw HE']; try apply HQ; auto.
    assert (HG : values_at qs s' = Ok (Node ktuple ws)).
    { unfold values_at. destruct HE' as [HE' _].
      assert (mapM (fun p => match sub s' p with Some s => Ok s | None => Err AttributeError end) qs = Ok ws) as ->; auto.
      clear -HE' HLw. revert ws HLw HE'; induction qs as [|q qs IH]; intros [|w ws] HL HE; try discriminate; auto.
      cbn [mapM]. rewrite (HE q w) by (left; auto). cbn [bind]. rewrite (IH ws); auto.
      intros p r Hin. apply HE. right; auto. }
    assert (HV : selects_values s' ps).
    { assert (HV : selects_values s ps).
      { apply (edited_selects t ps (map (fun _ => Leaf shared_node) ps) s); auto; [apply map_length|].
        intros r Hr. apply in_map_iff in Hr as (? & <- & _). discriminate. }
      intros p Hp. rewrite (edited_untouched s (List.combine qs ws) s' p HE'); [auto|].
      intros q r Hin. destruct (HU q p); [eapply in_combine_l; eauto|auto|]. split; auto. }
    destruct (values_ok aeq aeq_refl s' ps ws HS HV HL) as [out Ho].
    exists out. split; [unfold shared_call; rewrite HG; auto|].
    apply put_get_many in Ho as [_ Ho]; try apply HS; auto.
    (* first without the placeholder *)
    assert (E1 : edited s (List.combine qs ws ++ List.combine ps ws) out).
    { eapply edited_compose; eauto. intros p r q v Hp Hq. apply HU; eapply in_combine_l; eauto. }
    destruct E1 as [X1 X2]. split; auto. intros q Hq. rewrite X2 by auto.
    destruct HE as [_ HE]. apply HE. intros p r Hin.
    apply in_combine_l in Hin. apply In_nth_error in Hin as [i Hi].
    destruct (nth_error_ge_ex ws i) as [w Hw]; [rewrite HL; eapply nth_error_lt; eauto|].
    apply (Hq p w). apply in_or_app. right. clear -Hi Hw.
    revert ws i Hi Hw; induction ps as [|p' ps IH]; intros [|r' rs'] [|i] Hi Hr; cbn in *; try discriminate.
    - inv Hi; inv Hr; auto.
    - right; eauto.
  Qed.

  Lemma init_mismatch ps get t src dst : get t = Ok src -> values_at ps t = Ok dst ->
    tree_eqb seqb (lmap struct src) (lmap struct dst) = false -> init ps get t = Err ValueError.
  Proof. intros H1 H2 H3. unfold shared_init. rewrite H1; cbn [bind]. rewrite H2; cbn [bind]. rewrite H3; auto. Qed.
End Shared.
