From Verif Require Import Base Ckpt_Model Ckpt_Spec Ckpt_Proofs Ckpt_Proofs3 Loop_Model Loop_Spec Loop_Proofs.
Open Scope Z_scope.

Lemma upd_app {A} (l1 l2 : list A) y x : upd (l1 ++ y :: l2) (length l1) x = l1 ++ x :: l2.
Proof. induction l1; cbn; congruence. Qed.

Section Scan.
  Context {Cr Xs Y : Type}.
  Variable f : Cr -> Xs -> Cr * Y.
  Variable xs : list Xs.
  Variable dx : Xs.

  Lemma scan_spec_app : forall l1 l2 c,
    scan_spec f (l1 ++ l2) c =
    (fst (scan_spec f l2 (fst (scan_spec f l1 c))),
     snd (scan_spec f l1 c) ++ snd (scan_spec f l2 (fst (scan_spec f l1 c)))).
  Proof.
    induction l1; intros; cbn.
    - destruct (scan_spec f l2 c); reflexivity.
    - destruct (f c a). rewrite IHl1. destruct (scan_spec f l1 c0). reflexivity.
  Qed.
  Lemma scan_spec_length : forall l c, length (snd (scan_spec f l c)) = length l.
  Proof. induction l; intros; cbn; auto. destruct (f c a). specialize (IHl c0). destruct (scan_spec f l c0). cbn in *. lia. Qed.

  Lemma firstn_S_nth (l : list Xs) k : (k < length l)%nat -> firstn (S k) l = firstn k l ++ [nth k l dx].
  Proof. revert k; induction l; intros [|k] H; cbn in *; try lia; auto. f_equal. apply IHl. lia. Qed.

  Lemma scan_run init ys0 : length ys0 = length xs -> forall k, (k <= length xs)%nat ->
    plain_run (scan_body f xs dx) k ((O, init), ys0) =
    ((k, fst (scan_spec f (firstn k xs) init)), snd (scan_spec f (firstn k xs) init) ++ skipn k ys0).
  Proof.
    intros Hl. induction k; intros Hk; [reflexivity|].
    cbn [plain_run]. rewrite IHk by lia. unfold plain_step, scan_body. cbn [fst snd].
    rewrite (firstn_S_nth xs k) by lia. rewrite scan_spec_app. cbn [fst snd].
    set (c := fst (scan_spec f (firstn k xs) init)).
    cbn [scan_spec]. destruct (f c (nth k xs dx)) as [c2 y]. cbn [fst snd fold_left].
    f_equal. unfold plain_write. cbn [w_pred w_idx w_val].
    destruct (skipn k ys0) as [|y0 rest] eqn:E.
    { apply (f_equal (@length _)) in E. rewrite skipn_length in E. cbn in E. lia. }
    assert (Hs : skipn (S k) ys0 = rest).
    { clear - E. revert ys0 E. induction k; intros [|z ys0] E; cbn in *; try discriminate; try congruence; auto. }
    assert (Hk' : k = length (snd (scan_spec f (firstn k xs) init))).
    { rewrite scan_spec_length, firstn_length. lia. }
    rewrite Hk' at 2. rewrite upd_app, Hs, <- app_assoc. reflexivity.
  Qed.

  Lemma choose_scan ck : (0 < length xs)%nat -> (match ck with SInt c => 1 <= c | _ => True end) ->
    exists c, choose_checkpoints (match ck with SNone => None | SInt c => Some c | SAll => Some (Z.of_nat (length xs)) end)
                (Some (Z.of_nat (length xs))) = Ok c.
  Proof.
    intros Hl Hc. unfold choose_checkpoints. destruct ck; cbn [bind].
    - set (m := Z.of_nat (length xs)). assert (1 <= m) by lia.
      replace ((m =? 1) || (2 * m <? (default_checkpoints m + 1) * (default_checkpoints m + 2))) with true.
      2:{ symmetry. pose proof (default_range m H). pose proof (proj2 (default_le m (default_checkpoints m) H ltac:(lia)) (Z.le_refl _)). lia. }
      cbn [bind]. pose proof (default_range m H). destruct (Z.ltb_spec (default_checkpoints m) 1); [lia|eauto].
    - destruct (Z.ltb_spec c 1); [lia|eauto].
    - destruct (Z.ltb_spec (Z.of_nat (length xs)) 1); [lia|eauto].
  Qed.

  Lemma scan_correct fuel la ck init ys0 :
    (0 < length xs)%nat -> (match ck with SInt c => 1 <= c | _ => True end) ->
    (la = None \/ la = Some (length xs)) -> length ys0 = length xs -> (length xs < fuel)%nat ->
    scan_checkpointed f xs dx fuel la ck init ys0 = Ok (Some (scan_spec f xs init)).
  Proof.
    intros Hl Hc Hla Hy Hf. unfold scan_checkpointed.
    assert (scan_length xs la = Ok (length xs)) as ->.
    { destruct Hla as [->| ->]; cbn; auto. rewrite Nat.eqb_refl. reflexivity. }
    cbn [bind]. unfold checkpointed_loop.
    destruct (choose_scan ck Hl Hc) as [c ->]. cbn [bind].
    destruct (Z.eqb_spec (Z.of_nat (length xs)) 0); [lia|].
    rewrite (lax_loop_correct _ _ _ [((O, init), ys0)] [length xs]).
    - cbn [bind List.combine map fst snd]. rewrite scan_run by auto.
      rewrite firstn_all, skipn_all2 by lia. rewrite app_nil_r.
      destruct (scan_spec f xs init). reflexivity.
    - constructor; [|constructor]. split; [reflexivity|]. split; [lia|]. right; auto.
    - right. intros s [<-|[]]. cbn. lia.
    - cbn. lia.
  Qed.
End Scan.

(** Unused checkpoint argument: it never changes the value computed. *)
Section While.
  Context {N X : Type}.
  Variable body : N -> list X -> N * list (write X).
  Variable cond : N -> list X -> bool.

  Lemma choose_ok max_steps checkpoints :
    match max_steps, checkpoints with
        | Some m, None => 1 <= m
        | Some m, Some c => 0 <= m /\ 1 <= c
        | None, Some c => 1 <= c
        | None, None => False
        end -> exists c, choose_checkpoints checkpoints max_steps = Ok c.
  Proof.
    intros H. unfold choose_checkpoints. destruct checkpoints as [c|].
    - cbn [bind]. destruct (Z.ltb_spec c 1); [destruct max_steps; lia|eauto].
    - destruct max_steps as [m|]; [|tauto].
      replace ((m =? 1) || (2 * m <? (default_checkpoints m + 1) * (default_checkpoints m + 2))) with true.
      2:{ symmetry. pose proof (default_range m H). pose proof (proj2 (default_le m (default_checkpoints m) H ltac:(lia)) (Z.le_refl _)). lia. }
      cbn [bind]. pose proof (default_range m H). destruct (Z.ltb_spec (default_checkpoints m) 1); [lia|eauto].
  Qed.

  Lemma while_loop_correct kind fuel max_steps checkpoints base batched inits ss :
    fits_kind kind max_steps checkpoints base ->
    Forall2 (lane_stops body cond max_steps) inits ss ->
    (batched = true \/ (forall s, In s ss -> s = list_max ss)) ->
    (list_max ss < fuel)%nat ->
    while_loop body cond kind fuel max_steps checkpoints base batched inits =
      Ok (Some (map (fun vs => plain_run body (snd vs) (fst vs)) (List.combine inits ss))).
  Proof.
    intros Hk Hss Hb Hf. destruct kind; cbn [while_loop].
    - rewrite (lax_loop_correct _ _ _ inits ss Hss batched Hb) by auto. reflexivity.
    - unfold checkpointed_loop. destruct (choose_ok max_steps checkpoints Hk) as [c ->]. cbn [bind].
      destruct (match max_steps with Some m => m =? 0 | None => false end) eqn:E.
      + destruct max_steps as [m|]; [|discriminate]. do 2 f_equal. clear Hb Hk Hf.
        induction Hss as [|vb s l l' Hs Hl IH]; cbn; auto. rewrite <- IH. f_equal.
        destruct Hs as (_ & Hs & _). assert (s = 0%nat) by lia. subst. reflexivity.
      + rewrite (lax_loop_correct _ _ _ inits ss Hss batched Hb) by auto. reflexivity.
    - destruct max_steps as [m|]; [|cbn in Hk; tauto]. destruct Hk as [Hk1 Hk2].
      rewrite (bounded_loop_correct body cond m base inits ss) by auto. reflexivity.
    - destruct Hk.
  Qed.

  Lemma while_loop_single kind fuel max_steps checkpoints base init s :
    fits_kind kind max_steps checkpoints base ->
    lane_stops body cond max_steps init s -> (s < fuel)%nat ->
    while_loop body cond kind fuel max_steps checkpoints base false [init] =
      Ok (Some [plain_run body s init]).
  Proof.
    intros Hk Hs Hf.
    rewrite (while_loop_correct kind fuel max_steps checkpoints base false [init] [s] Hk).
    - reflexivity.
    - constructor; [exact Hs|constructor].
    - right. intros s' [<-|[]]. cbn. lia.
    - cbn. lia.
  Qed.
End While.
