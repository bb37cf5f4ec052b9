(** A schedule with two slots for [m * m] steps which needs at most [m * m * m] evaluations. *)
From Verif Require Import Base CkptCost_Spec.

Lemma advances C : forall k c l g a,
  reverses C {| m_cur := c + k; m_stored := l; m_sg := g |} a -> reverses C {| m_cur := c; m_stored := l; m_sg := g |} (k + a).
Proof.
  induction k as [|k IH]; intros c l g a H; [rewrite Nat.add_0_r in H; exact H|].
  eapply rev_advance; [constructor|]. apply (IH (S c)). rewrite Nat.add_succ_r in H. exact H.
Qed.

(** Reversing the last [l] steps from the one stored last. *)
Lemma from_stored C base st : forall l c a,
  (forall c', reverses C {| m_cur := c'; m_stored := base :: st; m_sg := base |} a) ->
  exists a', 2 * a' + l = l * l + 2 * a /\ reverses C {| m_cur := c; m_stored := base :: st; m_sg := base + l |} a'.
Proof.
  induction l as [|l IH]; intros c a H.
  - exists a. split; [lia|]. rewrite Nat.add_0_r. apply H.
  - destruct (IH (base + l) a H) as (a' & E & Hr). exists (l + a'). split; [nia|].
    eapply (rev_other _ _ (Load base)); [apply do_load; left; reflexivity|discriminate|].
    apply advances. rewrite Nat.add_succ_r. eapply (rev_other _ _ Turn); [apply do_turn|discriminate|exact Hr].
Qed.

Lemma blocks m : forall j c, exists a, 2 * a + 2 * (j * m) = j * j * m + j * m * m /\
  reverses 2 {| m_cur := c; m_stored := [0]; m_sg := j * m |} a.
Proof.
  induction j as [|j IH]; intros c.
  - exists 0. split; [lia|]. apply rev_done. reflexivity.
  - destruct (IH 0) as (a & E & Hr).
    assert (Hd : forall c', reverses 2 {| m_cur := c'; m_stored := [j * m; 0]; m_sg := j * m |} a).
    { intros c'. eapply (rev_other _ _ (Drop (j * m))); [apply (do_drop _ _ [] _ [0])|discriminate|].
      eapply (rev_other _ _ (Load 0)); [apply do_load; left; reflexivity|discriminate|exact Hr]. }
    destruct (from_stored 2 (j * m) [0] m (j * m) a Hd) as (a' & E' & Hr').
    exists (j * m + a'). split; [nia|].
    eapply (rev_other _ _ (Load 0)); [apply do_load; left; reflexivity|discriminate|].
    apply advances. eapply (rev_other _ _ Store); [apply do_store; cbn; lia|discriminate|].
    replace (S j * m) with (j * m + m) by lia. exact Hr'.
Qed.

Lemma square_root_schedule m : exists a, a <= m * m * m /\ reverses 2 (after_forward (m * m) [0]) a.
Proof. destruct (blocks m m (m * m)) as (a & E & Hr). exists a. split; [lia|exact Hr]. Qed.
