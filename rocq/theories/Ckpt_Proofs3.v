From Verif Require Import Base Ckpt_Model Ckpt_Spec Ckpt_Proofs Ckpt_Proofs2.
Open Scope Z_scope.

Section Adjoint.
  Context {N Bf G P T Q K : Type}.
  Variable fN : N -> Bf -> N.
  Variable fB : N -> Bf -> Bf.
  Variables (v0 : N) (b0 : Bf).
  Variable jvp : N -> Bf -> T -> Q -> T.
  Variable vjp : N -> Bf -> G -> P * G.
  Variable addP : P -> P -> P.
  Variable plus : K -> K -> K.
  Variable pairG : G -> T -> K.
  Variable pairP : P -> Q -> K.
  Hypothesis plus_comm : forall a b, plus a b = plus b a.
  Hypothesis plus_assoc : forall a b c, plus a (plus b c) = plus (plus a b) c.
  Hypothesis pairP_add : forall p q d, pairP (addP p q) d = plus (pairP p d) (pairP q d).
  Hypothesis Htr : is_transpose jvp plus pairG pairP vjp.

  Lemma backprop_adjoint dx dp : forall n g p,
    plus (pairG g (tangent fN fB v0 b0 jvp n dx dp)) (pairP p dp) =
    plus (pairG (fst (backprop fN fB vjp addP v0 b0 n g p)) dx)
         (pairP (snd (backprop fN fB vjp addP v0 b0 n g p)) dp).
  Proof.
    induction n; intros g p; cbn; auto.
    rewrite <- IHn, pairP_add, Htr.
    rewrite <- plus_assoc. f_equal. apply plus_comm.
  Qed.
End Adjoint.

(** Number of checkpoints. *)
Lemma default_le m c : 1 <= m -> 0 <= c -> (2 * m < (c + 1) * (c + 2) <-> default_checkpoints m <= c).
Proof.
  intros Hm Hc. unfold default_checkpoints.
  destruct (Z.eqb_spec m 1) as [->|Hm1].
  { split; intros; [|nia]. destruct (Z.eq_dec c 0); [subst; lia|lia]. }
  pose proof (Z.sqrt_spec (8 * m + 1) ltac:(lia)) as [Hlo Hhi].
  set (r := Z.sqrt (8 * m + 1)) in *.
  assert (0 <= r) by apply Z.sqrt_nonneg.
  (* 2m < (c+1)(c+2)  <->  8m+1 < (2c+3)^2  <->  r < 2c+3 *)
  assert (E : 2 * m < (c + 1) * (c + 2) <-> r < 2 * c + 3).
  { split; intros Hx; nia. }
  rewrite E. split; intros Hx.
  - assert ((r - 3) / 2 < c) by (apply Z.div_lt_upper_bound; lia). lia.
  - assert (~ c <= (r - 3) / 2) by lia. assert (r - 3 < 2 * c); [|lia].
    destruct (Z.lt_ge_cases (r - 3) (2 * c)); auto. exfalso. apply H0. apply Z.div_le_lower_bound; lia.
Qed.

Lemma default_range m : 1 <= m -> 1 <= default_checkpoints m <= m.
Proof.
  intros Hm. split.
  - destruct (Z.lt_ge_cases (default_checkpoints m) 1); auto.
    assert (default_checkpoints m <= 0) by lia. apply default_le in H0; lia.
  - apply default_le; nia.
Qed.

Lemma default_fast m : 1 <= m -> m <= u2_minus_1 (default_checkpoints m).
Proof.
  intros Hm. unfold u2_minus_1.
  pose proof (default_range m Hm) as [H1 _].
  pose proof (proj2 (default_le m (default_checkpoints m) Hm ltac:(lia)) (Z.le_refl _)) as H.
  set (c := default_checkpoints m) in *.
  assert (Hev : exists q, (c + 1) * (c + 2) = 2 * q).
  { destruct (Z.Even_or_Odd c) as [[q ->]|[q ->]]; [exists ((2*q+1)*(q+1))|exists ((q+1)*(2*q+3))]; lia. }
  destruct Hev as [q Hq]. rewrite Hq, Z.mul_comm, Z.div_mul by lia. lia.
Qed.

Section Reach.
  Context {N Bf G P : Type}.
  Variable fN : N -> Bf -> N.
  Variable fB : N -> Bf -> Bf.
  Variable intmax : Z.
  Variable fill : N.
  Variable C : Z.
  Variable max_steps : option Z.
  Variables (v0 : N) (b0 : Bf).
  Hypothesis HC : 1 <= C.
  Variable vjp : N -> Bf -> G -> P * G.
  Variable addP : P -> P -> P.
  Variable n : nat.
  Hypothesis Hn : Z.of_nat n < intmax.
  Hypothesis Hin : within C max_steps n.
  Hypothesis Hwo : buffers_write_once fN fB vjp v0 b0 n.
  Notation bufs := (snd (traj fN fB v0 b0 n)).
  Notation bwd_body := (bwd_body fN intmax fill C max_steps vjp addP bufs).
  Notation inv := (bwd_inv fN fB intmax fill C max_steps v0 b0 vjp addP n).

  Lemma fstate_iter k : fstate fN fB intmax fill C max_steps v0 b0 k =
    Nat.iter k (fwd_body fN fB C max_steps) (fwd_init intmax fill C v0 b0).
  Proof. induction k; [reflexivity|]. simpl. rewrite IHk. reflexivity. Qed.

  (** With one checkpoint per step, the backward pass is a single sweep. *)
  Lemma bwd_single_sweep g p : all_saved C max_steps = true -> forall k c,
    inv g p c -> b_sg c = Z.of_nat k ->
    forall fuel, (k < fuel)%nat -> exists c', while fuel bwd_cond bwd_body c = Some c'.
  Proof.
    intros Ha. induction k; intros c Hi Hsg fuel Hf.
    - destruct Hi as (H1 & _). lia.
    - destruct fuel; [lia|]. cbn [while].
      destruct (bwd_cond c); [|eauto].
      assert (Hsg' : b_sg (bwd_body c) = Z.of_nat k).
      { unfold Ckpt_Model.bwd_body. rewrite Ha. destruct (vjp (b_val c) bufs (b_g c)).
        destruct (load _ _ _ _ _ _ _) as [[? ?] ?]. cbn. lia. }
      destruct (bwd_step _ _ _ _ _ _ _ _ HC _ _ _ Hn Hwo g p c Hi) as [(H1 & H2 & _)|[H1 _]].
      + apply IHk; auto; lia.
      + destruct fuel; [lia|]. cbn [while]. unfold bwd_cond at 1. rewrite H1. cbn. eauto.
  Qed.

  (** Every state in which the backward loop body is run satisfies the invariant. *)
  Lemma bwd_reach g p c0 : inv g p c0 -> forall k,
    (forall j, (j <= k)%nat -> 0 < b_sg (Nat.iter j bwd_body c0)) ->
    inv g p (Nat.iter k bwd_body c0).
  Proof.
    intros H0. induction k; intros Hj; [exact H0|].
    assert (Hi : inv g p (Nat.iter k bwd_body c0)) by (apply IHk; intros; apply Hj; lia).
    specialize (Hj (S k) (le_n _)).
    change (Nat.iter (S k) bwd_body c0) with (bwd_body (Nat.iter k bwd_body c0)) in *.
    destruct (bwd_step _ _ _ _ _ _ _ _ HC _ _ _ Hn Hwo g p _ Hi) as [(_ & H2 & _)|[H1 _]]; auto.
    lia.
  Qed.
End Reach.
