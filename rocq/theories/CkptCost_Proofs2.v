From Verif Require Import Base Ckpt_Model Ckpt_Spec Ckpt_Proofs Ckpt_Proofs2 Ckpt_Proofs3
  CkptCost_Spec CkptCost_Proofs.
From Coq Require Import Permutation Sorted.
Local Open Scope Z_scope.

(** * The steps stored by the Stumm--Walther schedule *)
Section Skip.
  Variable C : Z.
  (** [skip j]: the [j]-th step that is not stored. *)
  Fixpoint skip (j : nat) : Z :=
    match j with O => -1 | S j' => skip j' + (C + 1 - Z.of_nat j') end.

  Lemma skip_closed j : 2 * skip j = Z.of_nat j * (2 * C + 3 - Z.of_nat j) - 2.
  Proof. induction j as [|j IH]; [reflexivity|]. cbn [skip]. nia. Qed.

  Lemma skip_lt j k : (j < k)%nat -> Z.of_nat k <= C + 1 -> skip j < skip k.
  Proof.
    intros Hjk. induction k as [|k IH]; [lia|]. intros Hk. cbn [skip].
    destruct (Nat.eq_dec j k) as [->|]; [lia|]. specialize (IH ltac:(lia) ltac:(lia)). lia.
  Qed.

End Skip.

Section Fwd.
  Context {N Bf : Type}.
  Variable fN : N -> Bf -> N.
  Variable fB : N -> Bf -> Bf.
  Variable intmax : Z.
  Variable fill : N.
  Variable C : Z.
  Variable max_steps : option Z.
  Variables (v0 : N) (b0 : Bf).
  Hypothesis HC : 1 <= C.
  Notation fstate := (fstate fN fB intmax fill C max_steps v0 b0).
  Notation skip := (skip C).

  (** Slot [k] after [skip j + 1 + t] steps. *)
  Definition slot (j : nat) (t k : Z) : Z :=
    if k =? 0 then 0
    else if C - Z.of_nat j <? k then skip (Z.to_nat (C - k)) + 1
    else if k =? C - Z.of_nat j then (if t =? 0 then skip (j - 1) + 1 + k else skip j + 1)
    else if k <? t then skip j + 1 + k
    else skip (j - 1) + 1 + k.

  Definition sw_at (j : nat) (t : Z) (st : sw_state) : Prop :=
    let '(i, o, p, s) := st in
    o = C - Z.of_nat j /\ p = skip (S j) /\ s = (t <? C - Z.of_nat j) /\
    (t < C - Z.of_nat j -> i = if t =? 0 then C - Z.of_nat j else t).

  Definition at_phase (n : nat) (j : nat) (t : Z) : Prop :=
    Z.of_nat n = skip j + 1 + t /\ 0 <= t <= C - Z.of_nat j.

  Definition sw_shape (n : nat) (j : nat) (t : Z) (c : fcarry (N:=N) (Bf:=Bf)) : Prop :=
    at_phase n j t /\ sw_at j t (fst (f_save c)) /\
    (forall k s v, nth_error (f_res c) k = Some (s, v) -> s = slot j t (Z.of_nat k)).

  Hypothesis Has : all_saved C max_steps = false.

  Lemma sw_branch step st rs : step < u2_minus_1 C ->
    should_save C max_steps step st rs =
    let '(save, index, sw2) := stumm_walther step (fst st) in (save, index, (sw2, snd st)).
  Proof.
    intros Hs. unfold should_save. rewrite Has.
    replace (match max_steps with
             | Some m => if m <=? u2_minus_1 C then false else u2_minus_1 C <=? step
             | None => u2_minus_1 C <=? step end) with false; [reflexivity|].
    destruct max_steps as [m|]; [destruct (m <=? _)|]; auto; symmetry; apply Z.leb_gt; auto.
  Qed.

  Lemma u2_skip n : Z.of_nat n <= u2_minus_1 C -> Z.of_nat n <= skip (Z.to_nat (C + 1)).
  Proof.
    intros H. pose proof (skip_closed C (Z.to_nat (C + 1))) as E. rewrite Z2Nat.id in E by lia.
    unfold u2_minus_1 in H.
    assert ((C + 1) * (C + 2) / 2 <= skip (Z.to_nat (C + 1)) + 1); [|lia].
    apply Z.div_le_upper_bound; nia.
  Qed.

  Lemma phase_bound n j t : at_phase n j t -> Z.of_nat n <= u2_minus_1 C -> Z.of_nat j <= C.
  Proof. intros [_ H] _. lia. Qed.

  Lemma sw_shape_step n j t c :
    f_step c = Z.of_nat n -> length (f_res c) = Z.to_nat C -> Z.of_nat n < u2_minus_1 C -> C <= Z.of_nat n ->
    sw_shape n j t c -> exists j' t', sw_shape (S n) j' t' (fwd_body fN fB C max_steps c).
  Proof.
    intros Hs Hl Hu HCn ([Hp Ht] & Hsw & Hslot).
    unfold fwd_body. rewrite Hs, sw_branch by auto.
    destruct (fst (f_save c)) as [[[i o] p] s] eqn:Est. destruct Hsw as (Ho & Hpp & Hss & Hi).
    cbn [stumm_walther].
    destruct (Z.ltb_spec t (C - Z.of_nat j)) as [Htl|Htl].
    - (* a step is stored *)
      specialize (Hi Htl). subst s. exists j, (t + 1). cbn [andb].
      assert (Hj0 : (0 < j)%nat).
      { destruct j; [|lia]. cbn [skip] in Hp. lia. }
      replace (Z.of_nat n =? p) with false by (symmetry; apply Z.eqb_neq; rewrite Hpp; cbn [skip]; lia).
      assert (Hidx : 1 <= i <= C - 1).
      { rewrite Hi. destruct (Z.eqb_spec t 0); lia. }
      split; [split; lia|]. cbn [f_save f_res fst]. split.
      + unfold sw_at. split; [auto|]. split; [auto|]. split.
        * rewrite Hpp. cbn [skip]. destruct (Z.eqb_spec (Z.of_nat n + 1) (skip j + (C + 1 - Z.of_nat j)));
          destruct (Z.ltb_spec (t + 1) (C - Z.of_nat j)); auto; lia.
        * intros Hlt. destruct (Z.eqb_spec (t + 1) 0); [lia|]. subst o.
          rewrite Hi. destruct (Z.eqb_spec t 0) as [E|E].
          -- destruct (Z.ltb_spec (C - Z.of_nat j) (C - Z.of_nat j + 1)); lia.
          -- destruct (Z.ltb_spec (C - Z.of_nat j) (t + 1)); lia.
      + intros k s v Hk. unfold maybe_update in Hk. rewrite Hl, clampi_in in Hk by lia.
        rewrite nth_error_upd in Hk. unfold slot.
        destruct (Nat.eqb_spec k (Z.to_nat i)) as [Ek|Ek].
        * destruct (Nat.ltb _ _); inversion Hk; subst s v.
          destruct (Z.eqb_spec (Z.of_nat k) 0); [lia|].
          destruct (Z.ltb_spec (C - Z.of_nat j) (Z.of_nat k)).
          { rewrite Hi in Ek. destruct (Z.eqb_spec t 0); lia. }
          destruct (Z.eqb_spec (t + 1) 0); [lia|].
          destruct (Z.eqb_spec (Z.of_nat k) (C - Z.of_nat j)) as [E2|E2].
          -- destruct (Z.eqb_spec t 0); lia.
          -- destruct (Z.eqb_spec t 0); [lia|]. destruct (Z.ltb_spec (Z.of_nat k) (t + 1)); lia.
        * specialize (Hslot _ _ _ Hk). unfold slot in Hslot. rewrite Hslot.
          destruct (Z.eqb_spec (Z.of_nat k) 0); [auto|].
          destruct (Z.ltb_spec (C - Z.of_nat j) (Z.of_nat k)); [auto|].
          destruct (Z.eqb_spec (t + 1) 0); [lia|].
          destruct (Z.eqb_spec (Z.of_nat k) (C - Z.of_nat j)) as [E2|E2].
          -- destruct (Z.eqb_spec t 0); [lia|auto].
          -- destruct (Z.eqb_spec t 0), (Z.ltb_spec (Z.of_nat k) t), (Z.ltb_spec (Z.of_nat k) (t + 1)); auto; lia.
    - (* a step is skipped *)
      subst s. exists (S j), 0. cbn [andb]. clear Hi.
      assert (Et : t = C - Z.of_nat j) by lia.
      assert (Hpe : Z.of_nat n = p) by (rewrite Hpp; cbn [skip]; lia).
      rewrite <- Hpe, Z.eqb_refl.
      assert (HjC : Z.of_nat j < C).
      { pose proof (u2_skip (S n) ltac:(lia)) as Hx.
        destruct (Z.eq_dec (Z.of_nat j) C) as [E|E]; [|lia].
        replace (Z.to_nat (C + 1)) with (S j) in Hx by lia.
        rewrite <- Hpp in Hx. lia. }
      split; [split; [cbn [skip] in *; lia|lia]|]. cbn [f_save f_res fst]. split.
      + unfold sw_at. split; [lia|]. split; [rewrite Hpe, Hpp; cbn [skip]; lia|]. split.
        * subst o. destruct (Z.ltb_spec 0 (C - Z.of_nat j - 1)), (Z.ltb_spec 0 (C - Z.of_nat (S j))); auto; lia.
        * intros _. cbn [Z.eqb]. lia.
      + intros k s v Hk. unfold maybe_update in Hk.
        assert (Hkl : (k < Z.to_nat C)%nat) by (rewrite <- Hl; apply nth_error_Some; congruence).
        specialize (Hslot _ _ _ Hk). rewrite Hslot. unfold slot.
        replace (S j - 1)%nat with j by lia. cbn [Z.eqb].
        destruct (Z.eqb_spec (Z.of_nat k) 0); [auto|].
        destruct (Z.ltb_spec (C - Z.of_nat j) (Z.of_nat k)), (Z.ltb_spec (C - Z.of_nat (S j)) (Z.of_nat k)); auto; try lia.
        * destruct (Z.eqb_spec (Z.of_nat k) (C - Z.of_nat j)) as [E|E]; [|lia].
          destruct (Z.eqb_spec t 0); [lia|]. replace (Z.to_nat (C - Z.of_nat k)) with j by lia. auto.
        * destruct (Z.eqb_spec (Z.of_nat k) (C - Z.of_nat j)) as [E|E]; [lia|].
          destruct (Z.ltb_spec (Z.of_nat k) t); [|lia].
          destruct (Z.eqb_spec (Z.of_nat k) (C - Z.of_nat (S j))); [auto|].
          destruct (Z.ltb_spec (Z.of_nat k) 0); [lia|auto].
  Qed.

  Lemma sw_shape_all n : within C max_steps n -> Z.of_nat n <= intmax -> Z.of_nat n <= u2_minus_1 C ->
    C <= Z.of_nat n -> exists j t, sw_shape n j t (fstate n).
  Proof.
    intros Hin Him Hu HCn.
    assert (Hall := fwd_inv_all fN fB intmax fill C max_steps v0 b0 HC n Hin Him).
    assert (H : forall k, (k <= n)%nat -> C <= Z.of_nat k -> exists j t, sw_shape k j t (fstate k)).
    { induction k as [|k IH]; intros Hk HCk; [lia|].
      destruct (Z.eq_dec C (Z.of_nat (S k))) as [E|E].
      - destruct (Hall (S k) Hk) as (_ & _ & (Hl & _ & _ & _ & H5) & Hsw & _).
        exists 0%nat, C. split; [split; cbn [skip]; lia|]. split.
        + assert (Hact : sw_active C max_steps (Z.of_nat (S k))).
          { split; [auto|]. assert (HCu : C < u2_minus_1 C).
            { unfold u2_minus_1. apply Z.lt_add_lt_sub_r. apply Z.le_succ_l. apply Z.div_le_lower_bound; nia. }
            destruct max_steps; lia. }
          specialize (Hsw Hact). unfold sw_inv in Hsw. destruct (fst (f_save (fstate (S k)))) as [[[i o] p] s].
          destruct Hsw as (_ & _ & Hsw & _). destruct (Hsw ltac:(lia)) as (H1 & H2 & H3).
          unfold sw_at. cbn [skip]. split; [lia|]. split; [lia|]. split; [|lia].
          rewrite H3. symmetry. apply Z.ltb_ge. lia.
        + intros q s v Hq.
          assert (Hql : (q < Z.to_nat C)%nat) by (rewrite <- Hl; apply nth_error_Some; congruence).
          rewrite (H5 _ _ _ Hq ltac:(lia) ltac:(lia)). unfold slot.
          destruct (Z.eqb_spec (Z.of_nat q) 0); [lia|].
          destruct (Z.ltb_spec (C - Z.of_nat 0) (Z.of_nat q)); [lia|].
          destruct (Z.eqb_spec (Z.of_nat q) (C - Z.of_nat 0)); [lia|].
          destruct (Z.ltb_spec (Z.of_nat q) C); cbn [skip]; lia.
      - destruct (IH ltac:(lia) ltac:(lia)) as (j & t & Hsh).
        destruct (Hall k ltac:(lia)) as (Hst & _ & (Hl & _) & _).
        cbn [Ckpt_Proofs.fstate]. apply (sw_shape_step k j t); auto; lia. }
    apply H; auto.
  Qed.
End Fwd.

Section Budget.
  Context {N : Type}.
  Variable C : Z.
  Hypothesis HC : 1 <= C.
  Notation skip := (skip C).
  Notation slot := (slot C).

  Lemma skip_le j k : (j <= k)%nat -> Z.of_nat k <= C + 1 -> skip j <= skip k.
  Proof.
    intros H Hk. destruct (Nat.eq_dec j k) as [->|]; [lia|].
    pose proof (skip_lt C j k ltac:(lia) Hk). lia.
  Qed.

  Variable l : list (Z * N).
  Variable n : nat.
  Variables (j : nat) (t : Z).
  Hypothesis Hlen : length l = Z.to_nat C.
  Hypothesis Hlt : forall i s v, nth_error l i = Some (s, v) -> 0 <= s < Z.of_nat n.
  Hypothesis Hinc : forall i k s v s' v', nth_error l i = Some (s, v) -> nth_error l k = Some (s', v') ->
    (i < k)%nat -> s < s'.
  Hypothesis H0 : forall s v, nth_error l 0 = Some (s, v) -> s = 0.
  Hypothesis Hph : at_phase C n j t.
  Hypothesis Hj : (1 <= j)%nat.
  Hypothesis Hin : forall i s v, nth_error l i = Some (s, v) -> exists k, 0 <= k < C /\ s = slot j t k.
  Hypothesis Hall : forall k, 0 <= k < C -> exists i v, nth_error l i = Some (slot j t k, v).

  Lemma next_le i s v x i' v' : nth_error l i = Some (s, v) -> nth_error l i' = Some (x, v') -> s < x ->
    (S i < length l)%nat /\ (forall s' w, nth_error l (S i) = Some (s', w) -> s' <= x).
  Proof.
    intros Hi Hx Hsx.
    assert (Hii : (i < i')%nat).
    { destruct (Nat.lt_trichotomy i i') as [?|[<-|Hgt]]; auto.
      - rewrite Hi in Hx. inversion Hx; lia.
      - pose proof (Hinc _ _ _ _ _ _ Hx Hi Hgt). lia. }
    assert (Hi' : (i' < length l)%nat) by (apply nth_error_Some; congruence).
    split; [lia|]. intros s' w Hs'.
    destruct (Nat.eq_dec (S i) i') as [<-|]; [rewrite Hs' in Hx; inversion Hx; lia|].
    pose proof (Hinc _ _ _ _ _ _ Hs' Hx ltac:(lia)). lia.
  Qed.

  Lemma chain_in i : (i < j)%nat -> exists i' v, nth_error l i' = Some (skip i + 1, v).
  Proof.
    destruct Hph as [_ Ht]. intros Hi. destruct i as [|i].
    - destruct (Hall 0 ltac:(lia)) as (i' & v & E). exists i', v. rewrite E. reflexivity.
    - destruct (Hall (C - Z.of_nat (S i)) ltac:(lia)) as (i' & v & E). exists i', v. rewrite E.
      unfold CkptCost_Proofs2.slot. destruct (Z.eqb_spec (C - Z.of_nat (S i)) 0); [lia|].
      destruct (Z.ltb_spec (C - Z.of_nat j) (C - Z.of_nat (S i))); [|lia].
      replace (Z.to_nat (C - (C - Z.of_nat (S i)))) with (S i) by lia. reflexivity.
  Qed.

  Lemma chain i : (i < j)%nat -> forall s v, nth_error l i = Some (s, v) -> s = skip i + 1.
  Proof.
    destruct Hph as [_ Ht]. induction i as [|i IH]; intros Hi s v Hs.
    - rewrite (H0 _ _ Hs). reflexivity.
    - destruct (nth_error l i) as [[s1 v1]|] eqn:E1.
      2:{ apply nth_error_None in E1. assert (S i < length l)%nat by (apply nth_error_Some; congruence). lia. }
      pose proof (IH ltac:(lia) _ _ eq_refl) as Es1.
      pose proof (Hinc _ _ _ _ _ _ E1 Hs ltac:(lia)) as Hgt.
      assert (Hle : s <= skip (S i) + 1).
      { destruct (chain_in (S i) Hi) as (i' & v' & E').
        destruct (next_le i s1 v1 _ i' v' E1 E') as [_ Hx].
        - rewrite Es1. pose proof (skip_lt C i (S i) ltac:(lia) ltac:(lia)). lia.
        - apply (Hx _ _ Hs). }
      assert (Hge : skip (S i) + 1 <= s); [|lia].
      destruct (Hin _ _ _ Hs) as (k & Hk & Ek). unfold CkptCost_Proofs2.slot in Ek.
      destruct (Z.eqb_spec k 0) as [Hk0|Hk0].
      { pose proof (Hlt _ _ _ E1). lia. }
      assert (Hjm : skip (S i) <= skip (j - 1)) by (apply skip_le; lia).
      assert (Hjm2 : skip (j - 1) <= skip j) by (apply skip_le; lia).
      destruct (Z.ltb_spec (C - Z.of_nat j) k).
      + assert (Hik : (i < Z.to_nat (C - k))%nat).
        { destruct (Nat.lt_ge_cases i (Z.to_nat (C - k))); auto.
          pose proof (skip_le (Z.to_nat (C - k)) i ltac:(lia) ltac:(lia)). lia. }
        pose proof (skip_le (S i) (Z.to_nat (C - k)) ltac:(lia) ltac:(lia)). lia.
      + destruct (Z.eqb_spec k (C - Z.of_nat j)); [destruct (Z.eqb_spec t 0)|destruct (Z.ltb_spec k t)]; lia.
  Qed.

  Lemma shape_budget : budget C C l (Z.of_nat n).
  Proof.
    destruct Hph as [Hn Ht].
    (* if some stored step, or the end, is close enough, then the gap is within budget *)
    assert (Hkey : forall i s v, nth_error l i = Some (s, v) ->
      (exists i' x v', nth_error l i' = Some (x, v') /\ s < x /\
         (x - s <= C + 1 - Z.of_nat i \/ x - s <= 3)) \/
      Z.of_nat n - s <= C + 1 - Z.of_nat i \/ Z.of_nat n - s <= 2).
    { intros i s v Hs.
      assert (Hil : (i < length l)%nat) by (apply nth_error_Some; congruence).
      assert (Hsj : skip j = skip (j - 1) + (C + 1 - Z.of_nat (j - 1))).
      { replace j with (S (j - 1)) at 1 by lia. reflexivity. }
      assert (Hpj : t <> 0 -> exists i' v', nth_error l i' = Some (skip j + 1, v')).
      { intros Ht0. destruct (Hall (C - Z.of_nat j) ltac:(lia)) as (i' & v' & E). exists i', v'. rewrite E.
        unfold CkptCost_Proofs2.slot. destruct (Z.eqb_spec (C - Z.of_nat j) 0); [lia|].
        rewrite Z.ltb_irrefl, Z.eqb_refl. destruct (Z.eqb_spec t 0); [lia|reflexivity]. }
      destruct (Nat.lt_ge_cases i j) as [Hij|Hij].
      - pose proof (chain i Hij _ _ Hs) as Es.
        destruct (Nat.eq_dec (S i) j) as [E|E].
        + assert (Hi1 : (j - 1)%nat = i) by lia. rewrite Hi1 in Hsj.
          destruct (Z.eq_dec t 0) as [Et|Et].
          * right; left. lia.
          * left. destruct (Hpj Et) as (i' & v' & E'). exists i', (skip j + 1), v'.
            split; [exact E'|]. split; [lia|]. left. lia.
        + left. destruct (chain_in (S i) ltac:(lia)) as (i' & v' & E'). exists i', (skip (S i) + 1), v'.
          split; [exact E'|]. cbn [CkptCost_Proofs2.skip]. split; [lia|]. left. lia.
      - (* beyond the chain *)
        assert (Hgt : skip (j - 1) + 1 < s).
        { destruct (nth_error l (j - 1)) as [[s1 v1]|] eqn:E1; [|apply nth_error_None in E1; lia].
          rewrite <- (chain (j - 1) ltac:(lia) _ _ E1). apply (Hinc _ _ _ _ _ _ E1 Hs). lia. }
        destruct (Hin _ _ _ Hs) as (k & Hk & Ek).
        assert (Hnext : forall k', 0 <= k' < C -> slot j t k' = s + 1 ->
          exists i' x v', nth_error l i' = Some (x, v') /\ s < x /\ (x - s <= C + 1 - Z.of_nat i \/ x - s <= 3)).
        { intros k' Hk' E'. destruct (Hall k' Hk') as (i' & v' & E2). exists i', (s + 1), v'.
          rewrite E2, E'. split; [reflexivity|]. lia. }
        unfold CkptCost_Proofs2.slot in Ek.
        destruct (Z.eqb_spec k 0); [pose proof (skip_le 0 (j - 1) ltac:(lia) ltac:(lia)); cbn [CkptCost_Proofs2.skip] in *; lia|].
        destruct (Z.ltb_spec (C - Z.of_nat j) k).
        { pose proof (skip_le (Z.to_nat (C - k)) (j - 1) ltac:(lia) ltac:(lia)). lia. }
        destruct (Z.eqb_spec k (C - Z.of_nat j)) as [Ekc|Ekc].
        + destruct (Z.eqb_spec t 0) as [Et|Et].
          * right; right. lia.
          * (* the first stored step of this phase *)
            destruct (Z.eq_dec t 1) as [Et1|Et1]; [right; right; lia|].
            left. apply (Hnext 1 ltac:(lia)). unfold CkptCost_Proofs2.slot. destruct (Z.eqb_spec 1 0); [lia|].
            destruct (Z.ltb_spec (C - Z.of_nat j) 1); [lia|].
            destruct (Z.eqb_spec 1 (C - Z.of_nat j)); [lia|].
            destruct (Z.ltb_spec 1 t); lia.
        + destruct (Z.ltb_spec k t) as [Hkt|Hkt].
          * destruct (Z.eq_dec (k + 1) t) as [Ekt|Ekt]; [right; right; lia|].
            left. apply (Hnext (k + 1) ltac:(lia)). unfold CkptCost_Proofs2.slot.
            destruct (Z.eqb_spec (k + 1) 0); [lia|].
            destruct (Z.ltb_spec (C - Z.of_nat j) (k + 1)); [lia|].
            destruct (Z.eqb_spec (k + 1) (C - Z.of_nat j)); [lia|].
            destruct (Z.ltb_spec (k + 1) t); lia.
          * destruct (Z.eq_dec (k + 1) (C - Z.of_nat j)) as [Ekt|Ekt].
            -- destruct (Z.eq_dec t 0) as [Et|Et].
               ++ left. apply (Hnext (k + 1) ltac:(lia)). unfold CkptCost_Proofs2.slot.
                  destruct (Z.eqb_spec (k + 1) 0); [lia|].
                  destruct (Z.ltb_spec (C - Z.of_nat j) (k + 1)); [lia|].
                  destruct (Z.eqb_spec (k + 1) (C - Z.of_nat j)); [|lia].
                  destruct (Z.eqb_spec t 0); lia.
               ++ left. destruct (Hpj Et) as (i' & v' & E'). exists i', (skip j + 1), v'.
                  split; [exact E'|]. split; [lia|]. right. lia.
            -- left. apply (Hnext (k + 1) ltac:(lia)). unfold CkptCost_Proofs2.slot.
               destruct (Z.eqb_spec (k + 1) 0); [lia|].
               destruct (Z.ltb_spec (C - Z.of_nat j) (k + 1)); [lia|].
               destruct (Z.eqb_spec (k + 1) (C - Z.of_nat j)); [lia|].
               destruct (Z.ltb_spec (k + 1) t); lia. }
    intros i s v Hs Hi. split.
    - intros s' v' Hs' Hi'. destruct (Hkey i s v Hs) as [(i' & x & w & Hx & Hsx & Hb)|Hb].
      + destruct (next_le i s v x i' w Hs Hx Hsx) as [_ Hle]. specialize (Hle _ _ Hs'). lia.
      + pose proof (Hlt _ _ _ Hs'). lia.
    - intros Hi'. destruct (Hkey i s v Hs) as [(i' & x & w & Hx & Hsx & Hb)|Hb].
      + destruct (next_le i s v x i' w Hs Hx Hsx) as [Hl _]. lia.
      + lia.
  Qed.
End Budget.

Section Count.
  Context {N Bf G P : Type}.
  Variable fN : N -> Bf -> N.
  Variable fB : N -> Bf -> Bf.
  Variable cond : N -> Bf -> bool.
  Variable intmax : Z.
  Variable fill : N.
  Variable C : Z.
  Variable max_steps : option Z.
  Variables (v0 : N) (b0 : Bf).
  Hypothesis HC : 1 <= C.
  Variable vjp : N -> Bf -> G -> P * G.
  Variable addP : P -> P -> P.
  Variable n : nat.
  Hypothesis Hn : Z.of_nat n < intmax.
  Hypothesis Hin : within C max_steps n.
  Hypothesis Hwo : buffers_write_once fN fB vjp v0 b0 n.
  Hypothesis Hstop : stops_at fN fB cond v0 b0 n.
  Hypothesis Hu : Z.of_nat n <= u2_minus_1 C.
  Notation bufs := (snd (traj fN fB v0 b0 n)).
  Notation fstate := (fstate fN fB intmax fill C max_steps v0 b0).
  Notation stack_ok := (stack_ok fN fB C max_steps v0 b0 n).

  Lemma good_stack res : length res = Z.to_nat C ->
    good_checkpoints fN fB v0 b0 n (firstn (Nat.min n (Z.to_nat C)) res) ->
    (all_saved C max_steps = true -> forall k s v, nth_error res k = Some (s, v) -> (k < n)%nat -> s = Z.of_nat k) ->
    stack_ok (Z.min (Z.of_nat n) C) res.
  Proof.
    intros Hl (G1 & G2 & G3) Ha.
    assert (Hfn : forall k s v, nth_error res k = Some (s, v) -> Z.of_nat k < Z.min (Z.of_nat n) C ->
                nth_error (firstn (Nat.min n (Z.to_nat C)) res) k = Some (s, v)).
    { intros. rewrite nth_error_firstn. destruct (Nat.ltb_spec k (Nat.min n (Z.to_nat C))); [auto|lia]. }
    unfold Ckpt_Proofs2.stack_ok. split; [auto|]. split; [lia|]. split; [|split; [|split]].
    - intros. eapply G1; eauto.
    - intros. eapply (G2 j k); eauto. eapply Hfn; eauto; lia.
    - intros. eapply G3; eauto; apply Hfn; eauto.
    - intros Hs k s v Hk Hlt. eapply Ha; eauto; lia.
  Qed.

  Lemma small_budget res : Z.of_nat n <= C -> stack_ok (Z.min (Z.of_nat n) C) res ->
    budget C (Z.min (Z.of_nat n) C) res (Z.of_nat n).
  Proof.
    intros HnC Hst k s v Hk Hlt.
    pose proof (stack_ge fN fB C max_steps v0 b0 HC n _ _ Hst k s v Hk Hlt) as Hge.
    split; [|lia]. intros s' v' Hk' Hlt'. destruct Hst as (_ & _ & A3 & _).
    destruct (A3 _ _ _ Hk' Hlt'). lia.
  Qed.

  Lemma fwd_final fuel : (n < fuel)%nat ->
    while fuel (fwd_cond cond) (fwd_body fN fB C max_steps) (fwd_init intmax fill C v0 b0) = Some (fstate n).
  Proof.
    intros Hf. destruct Hstop as [Hc Hs].
    assert (Hall := fwd_inv_all fN fB intmax fill C max_steps v0 b0 HC n Hin (Z.lt_le_incl _ _ Hn)).
    apply (while_steps _ _ fstate n); auto.
    - intros k Hk. split; [|reflexivity].
      destruct (Hall k ltac:(lia)) as (_ & Hv & _). unfold fwd_cond.
      specialize (Hc k Hk). rewrite <- Hv in Hc. exact Hc.
    - destruct (Hall n ltac:(lia)) as (_ & Hv & _). unfold fwd_cond.
      rewrite <- Hv in Hs. exact Hs.
  Qed.

  Lemma fwd_budget fuel : (n < fuel)%nat ->
    exists res, ckpt_fwd fN fB cond intmax fill C max_steps fuel v0 b0
                = Some (Z.of_nat n, fst (traj fN fB v0 b0 n), bufs, res) /\
      length res = Z.to_nat C /\ good_checkpoints fN fB v0 b0 n (firstn (Nat.min n (Z.to_nat C)) res) /\
      (all_saved C max_steps = true -> forall k s v, nth_error res k = Some (s, v) -> (k < n)%nat -> s = Z.of_nat k) /\
      budget C (Z.min (Z.of_nat n) C) res (Z.of_nat n).
  Proof.
    intros Hf.
    destruct (ckpt_fwd_correct fN fB intmax fill C max_steps v0 b0 HC cond n fuel Hstop Hin (Z.lt_le_incl _ _ Hn) Hf)
      as (res & E1 & E2 & E3 & E4).
    exists res. split; [exact E1|]. split; [exact E2|]. split; [exact E3|]. split; [exact E4|].
    pose proof (good_stack res E2 E3 E4) as Hst.
    destruct (Z.le_gt_cases (Z.of_nat n) C) as [HnC|HnC]; [apply small_budget; auto|].
    replace (Z.min (Z.of_nat n) C) with C by lia.
    assert (Has : all_saved C max_steps = false).
    { unfold all_saved. unfold within in Hin. destruct max_steps; [|auto]. apply Z.eqb_neq. lia. }
    assert (Eres : res = isort (f_res (fstate n))).
    { unfold ckpt_fwd in E1. rewrite (fwd_final fuel Hf), Has in E1. inversion E1. reflexivity. }
    destruct (sw_shape_all fN fB intmax fill C max_steps v0 b0 HC Has n Hin (Z.lt_le_incl _ _ Hn) Hu ltac:(lia))
      as (j & t & Hph & _ & Hslot).
    assert (Hfull : firstn (Nat.min n (Z.to_nat C)) res = res).
    { rewrite Nat.min_r by lia. rewrite <- E2. apply firstn_all. }
    rewrite Hfull in E3. destruct E3 as (G1 & G2 & G3).
    assert (Hfl : length (f_res (fstate n)) = Z.to_nat C).
    { rewrite <- E2, Eres. symmetry. apply Permutation_length, isort_perm. }
    apply (shape_budget C HC res n j t E2); auto.
    - intros i s v Hs. destruct (G1 _ _ _ Hs); auto.
    - destruct Hph as [Hp Ht]. destruct j; [cbn [skip] in Hp; lia|lia].
    - intros i s v Hs. apply nth_error_In in Hs. rewrite Eres in Hs.
      apply (Permutation_in _ (isort_perm _)) in Hs. apply In_nth_error in Hs. destruct Hs as [k Hk].
      assert ((k < Z.to_nat C)%nat) by (rewrite <- Hfl; apply nth_error_Some; congruence).
      exists (Z.of_nat k). split; [lia|]. eapply Hslot; eauto.
    - intros k Hk. destruct (nth_error (f_res (fstate n)) (Z.to_nat k)) as [[s v]|] eqn:Ek.
      2:{ apply nth_error_None in Ek. lia. }
      pose proof (Hslot _ _ _ Ek) as Es. rewrite Z2Nat.id in Es by lia. subst s.
      apply nth_error_In in Ek. apply (Permutation_in _ (Permutation_sym (isort_perm _))) in Ek.
      rewrite <- Eres in Ek. apply In_nth_error in Ek. destruct Ek as [i Ei]. eauto.
  Qed.

  Lemma bwd_count fuel g p : (n < fuel)%nat ->
    exists res, ckpt_fwd fN fB cond intmax fill C max_steps fuel v0 b0
                = Some (Z.of_nat n, fst (traj fN fB v0 b0 n), bufs, res) /\
      forall fuel', ckpt_bwd fN intmax fill C max_steps vjp addP fuel' (Z.of_nat n) bufs g p res <> None <->
                    (n + (n - Z.to_nat C) < fuel')%nat.
  Proof.
    intros Hf. destruct (fwd_budget fuel Hf) as (res & E1 & E2 & E3 & E4 & E5).
    exists res. split; [exact E1|]. intros fuel'. unfold ckpt_bwd.
    destruct (Nat.eq_dec n 0) as [Hz|Hz].
    { unfold bwd_init. rewrite Hz. destruct (load _ _ _ _ _ _ _) as [[sv val] ix].
      destruct fuel'; cbn; split; intros; try lia; try congruence; try discriminate. }
    pose proof (good_stack res E2 E3 E4) as Hst.
    pose proof (bwd_init_inv fN fB intmax fill C max_steps v0 b0 HC vjp addP n Hn Hin res g p E2 E3 E4 Hz) as HI.
    assert (Ht : all_saved C max_steps = true -> top intmax fill (Z.min (Z.of_nat n) C) res + 1 = Z.of_nat n).
    { intros Hs. assert (HnC : Z.of_nat n <= C).
      { unfold within in Hin. unfold all_saved in Hs. destruct max_steps; [|discriminate]. lia. }
      destruct (top_spec fN fB intmax fill C max_steps v0 b0 HC n _ _ Hst ltac:(lia)) as (v & Hn1 & _).
      rewrite (E4 Hs _ _ _ Hn1 ltac:(lia)). lia. }
    pose proof (lin_init fN fB intmax fill C max_steps v0 b0 HC addP n res g p Hst Hz Ht E5) as HL.
    assert (En : 2 * Z.of_nat n - Z.min (Z.of_nat n) C = Z.of_nat (n + (n - Z.to_nat C))) by lia.
    rewrite En in HL.
    pose proof (lin_count fN fB intmax fill C max_steps v0 b0 HC vjp addP n Hn Hwo g p _ _ HI HL fuel') as HC'.
    rewrite <- HC'. destruct (while _ _ _ _); split; intros H; congruence || discriminate.
  Qed.
End Count.

(** * The backward loop is a schedule *)
Section Schedule.
  Context {N Bf G P : Type}.
  Variable fN : N -> Bf -> N.
  Variable fB : N -> Bf -> Bf.
  Variable intmax : Z.
  Variable fill : N.
  Variable C : Z.
  Variable max_steps : option Z.
  Variables (v0 : N) (b0 : Bf).
  Hypothesis HC : 1 <= C.
  Variable vjp : N -> Bf -> G -> P * G.
  Variable addP : P -> P -> P.
  Variable n : nat.
  Hypothesis Hn : Z.of_nat n < intmax.
  Hypothesis Hwo : buffers_write_once fN fB vjp v0 b0 n.
  Notation bufs := (snd (traj fN fB v0 b0 n)).
  Notation bwd_body := (bwd_body fN intmax fill C max_steps vjp addP bufs).
  Notation inv := (bwd_inv fN fB intmax fill C max_steps v0 b0 vjp addP n).
  Notation stack_ok := (stack_ok fN fB C max_steps v0 b0 n).
  Notation top := (top intmax fill).
  Notation calc_next := (calc_next intmax C).
  Notation all_saved := (all_saved C max_steps).

  Definition stored_of (index : Z) (res : list (Z * N)) : list nat :=
    rev (map (fun x => Z.to_nat (fst x)) (firstn (Z.to_nat index) res)).
  Definition mach (c : bcarry (N:=N) (G:=G) (P:=P)) : machine :=
    {| m_cur := Z.to_nat (b_sv c); m_stored := stored_of (b_index c) (b_res c); m_sg := Z.to_nat (b_sg c) |}.

  Lemma firstn_snoc {A} (l : list A) k x : nth_error l k = Some x -> firstn (S k) l = firstn k l ++ [x].
  Proof.
    revert k. induction l as [|y l IH]; intros [|k] H; cbn in *; try discriminate.
    - inversion H. reflexivity.
    - f_equal. apply IH; auto.
  Qed.

  Lemma firstn_upd {A} (l : list A) k x : firstn k (upd l k x) = firstn k l.
  Proof. revert k. induction l as [|y l IH]; intros [|k]; cbn; auto. f_equal; auto. Qed.

  Lemma stored_top index res : stack_ok index res -> 0 < index ->
    stored_of index res = Z.to_nat (top index res) :: stored_of (index - 1) res.
  Proof.
    intros Hst Hi. destruct (top_spec fN fB intmax fill C max_steps v0 b0 HC n _ _ Hst Hi) as (v & Ht & _).
    unfold stored_of. replace (Z.to_nat index) with (S (Z.to_nat (index - 1))) by lia.
    rewrite (firstn_snoc _ _ _ Ht), map_app, rev_app_distr. reflexivity.
  Qed.

  Lemma stored_length index res : stack_ok index res -> length (stored_of index res) = Z.to_nat index.
  Proof.
    intros (A1 & A2 & _). unfold stored_of. rewrite rev_length, map_length, firstn_length. lia.
  Qed.

  Lemma body_fwd g p c : inv g p c -> b_sv c + 1 <> b_sg c ->
    b_sv (bwd_body c) = b_sv c + 1 /\ b_sg (bwd_body c) = b_sg c /\
    ((b_index (bwd_body c) = b_index c /\ b_res (bwd_body c) = b_res c) \/
     (b_index c < C /\ b_index (bwd_body c) = b_index c + 1 /\
      exists v, b_res (bwd_body c) = upd (b_res c) (Z.to_nat (b_index c)) (b_sv c + 1, v))).
  Proof.
    intros (Hsv & Hsg & Hval & Hst & Hkp & Hbp) Hne.
    destruct Hkp as [(K0 & K1 & K2 & K3 & K4 & K5)|(P1 & _)]; [|congruence].
    unfold Ckpt_Model.bwd_body. rewrite K0.
    destruct (Z.eqb_spec (b_sv c + 1) (b_sg c)) as [E|_]; [congruence|].
    unfold maybe_save. cbn [b_sv b_sg b_next b_index b_val b_g b_p b_res].
    split; [auto|]. split; [auto|].
    destruct (Z.eqb_spec (b_sv c + 1) (b_next c)) as [E|E]; [right|left; auto].
    destruct K5 as [_ K5]; [lia|]. pose proof Hst as (A1 & A2 & _).
    split; [auto|]. split; [auto|]. unfold maybe_update. rewrite clampi_in by lia. eauto.
  Qed.

  Lemma body_turn g p c : inv g p c -> b_sv c + 1 = b_sg c ->
    b_sg (bwd_body c) = b_sg c - 1 /\
    (0 < b_sg (bwd_body c) -> 0 < b_index c /\ b_sv (bwd_body c) = top (b_index c) (b_res c) /\
       b_res (bwd_body c) = b_res c /\
       (b_index (bwd_body c) = b_index c \/ b_index (bwd_body c) = b_index c - 1)).
  Proof.
    intros Hinv Hs1. pose proof Hinv as (Hsv & Hsg & Hval & Hst & Hkp & Hbp).
    destruct (bwd_step fN fB intmax fill C max_steps v0 b0 HC vjp addP n Hn Hwo g p c Hinv) as [(S1 & S2 & _)|[S1 S2]].
    - unfold Ckpt_Model.bwd_body in *.
      replace (if all_saved then true else b_sv c + 1 =? b_sg c) with true in *
        by (destruct all_saved; [auto|symmetry; apply Z.eqb_eq; auto]).
      rewrite (backprop_u_turn fN fB v0 b0 vjp addP n Hwo _ (b_sv c) (b_val c)) in Hbp by (auto; lia).
      destruct (vjp (b_val c) bufs (b_g c)) as [pu g2] eqn:Ev. cbn [fst snd] in Hbp.
      assert (Hstk : 0 < b_index c /\ top (b_index c) (b_res c) < b_sg c - 1 /\
                     (all_saved = true -> top (b_index c) (b_res c) + 1 = b_sg c - 1)).
      { pose proof Hst as (A1 & A2 & A3 & A4 & A5 & A6).
        destruct Hkp as [(K0 & K1 & K2 & K3 & _)|(P1 & P2 & P3 & P4 & P5)].
        - split; [auto|]. split; [lia|]. congruence.
        - destruct (Z.eq_dec (b_index c) 0) as [Hz|Hz].
          { specialize (P3 Hz). destruct (load _ _ _ _ _ _ _) as [[sv2 val2] ix2].
            destruct all_saved; unfold maybe_save in S1; cbn in S1; lia. }
          split; [lia|]. split; [specialize (P2 ltac:(lia)); lia|].
          intros Ha. specialize (P5 Ha).
          destruct (top_spec fN fB intmax fill C max_steps v0 b0 HC n _ _ Hst ltac:(lia)) as (v & Hn1 & _).
          specialize (A6 Ha _ _ _ Hn1 ltac:(lia)). lia. }
      destruct Hstk as (Hi & Ht & Hta).
      destruct (top_spec fN fB intmax fill C max_steps v0 b0 HC n _ _ Hst Hi) as (tv & _ & Hn2 & Hrg & _).
      assert (Hsg1 : 0 < b_sg c - 1 <= Z.of_nat n) by lia.
      pose proof (load_inv fN fB intmax fill C max_steps v0 b0 HC vjp addP n Hn
         (b_sg c - 1) (b_index c) (b_res c) g p g2 (addP (b_p c) pu) Hst Hi Hsg1 Ht Hta Hbp) as HL.
      assert (Eld : load intmax fill C max_steps (b_sg c - 1) (b_index c) (b_res c) =
                    (top (b_index c) (b_res c), tv,
                     if (if all_saved then true else top (b_index c) (b_res c) + 1 =? b_sg c - 1)
                     then b_index c - 1 else b_index c)).
      { unfold load. rewrite Hn2. replace (Z.max (b_index c - 1) 0) with (b_index c - 1) by lia. reflexivity. }
      rewrite Eld in *.
      set (ix := if (if all_saved then true else top (b_index c) (b_res c) + 1 =? b_sg c - 1)
                 then b_index c - 1 else b_index c) in *.
      assert (Hix : ix = b_index c \/ ix = b_index c - 1).
      { unfold ix. destruct (if all_saved then true else _); auto. }
      set (c2 := {| b_sv := top (b_index c) (b_res c) |}) in *.
      assert (Hne : b_sv c2 <> b_next c2).
      { destruct HL as (L1 & L2 & _ & _ & [L3|L3] & _).
        - destruct L3 as (_ & _ & _ & _ & L & _). lia.
        - destruct L3 as (_ & _ & _ & L & _). lia. }
      assert (Ec : (if all_saved then c2 else maybe_save intmax C c2) = c2).
      { destruct all_saved; [auto|]. unfold maybe_save.
        destruct (Z.eqb_spec (b_sv c2) (b_next c2)) as [E|E]; [destruct (Hne E)|reflexivity]. }
      rewrite Ec. cbn. auto.
    - split; [|lia]. rewrite S1. unfold Ckpt_Model.bwd_body in S1.
      replace (if all_saved then true else b_sv c + 1 =? b_sg c) with true in S1
        by (destruct all_saved; [auto|symmetry; apply Z.eqb_eq; auto]).
      destruct (vjp _ _ _). destruct (load _ _ _ _ _ _ _) as [[? ?] ?].
      destruct all_saved; unfold maybe_save in S1; cbn in S1; lia.
  Qed.

  Lemma schedule g p : forall m c, inv g p c -> measure n c <= Z.of_nat m ->
    exists a, reverses (Z.to_nat C) (mach c) a /\
      forall fuel, while fuel bwd_cond bwd_body c <> None <-> (Z.to_nat (b_sg c) + a < fuel)%nat.
  Proof.
    induction m as [|m IH]; intros c Hi Hm.
    { destruct Hi as (H1 & H2 & _). unfold measure in Hm. nia. }
    assert (Hc : bwd_cond c = true) by (destruct Hi as (I1 & _); unfold bwd_cond; lia).
    pose proof Hi as (Hsv & Hsg & _ & Hst & _).
    pose proof (bwd_step fN fB intmax fill C max_steps v0 b0 HC vjp addP n Hn Hwo g p c Hi) as Hstep.
    destruct (Z.eq_dec (b_sv c + 1) (b_sg c)) as [Hs1|Hs1].
    - destruct (body_turn g p c Hi Hs1) as [B1 B2].
      assert (Hturn : does (Z.to_nat C) (mach c) Turn
          {| m_cur := Z.to_nat (b_sv c); m_stored := stored_of (b_index c) (b_res c); m_sg := Z.to_nat (b_sv c) |}).
      { unfold mach. replace (Z.to_nat (b_sg c)) with (S (Z.to_nat (b_sv c))) by lia. constructor. }
      destruct Hstep as [(S1 & S2 & S3)|[S1 _]].
      + destruct (IH _ S2 ltac:(lia)) as (a & Ha & Hw). exists a. split.
        * eapply rev_other; [exact Hturn|discriminate|].
          destruct (B2 S1) as (B3 & B4 & B5 & B6).
          pose proof (stored_top _ _ Hst B3) as Etop.
          eapply rev_other; [apply (do_load _ _ (Z.to_nat (top (b_index c) (b_res c)))); rewrite Etop; left; reflexivity|discriminate|].
          unfold mach in Ha. rewrite B4, B5, B1 in Ha.
          replace (Z.to_nat (b_sg c - 1)) with (Z.to_nat (b_sv c)) in Ha by lia.
          destruct B6 as [B6|B6]; rewrite B6 in Ha; [exact Ha|].
          rewrite Etop. eapply rev_other; [apply (do_drop _ _ [])|discriminate|]. exact Ha.
        * intros [|fuel]; [cbn; split; [congruence|lia]|]. cbn [while]. rewrite Hc, Hw, B1. lia.
      + exists O. split.
        * eapply rev_other; [exact Hturn|discriminate|]. apply rev_done. cbn. lia.
        * intros [|fuel]; [cbn; split; [congruence|lia]|]. cbn [while]. rewrite Hc.
          destruct fuel as [|fuel]; [cbn; split; [congruence|lia]|].
          cbn [while]. unfold bwd_cond at 1. rewrite S1. cbn [Z.ltb Z.compare]. split; [lia|discriminate].
    - destruct (body_fwd g p c Hi Hs1) as (B1 & B2 & B3).
      destruct Hstep as [(S1 & S2 & S3)|[S1 _]]; [|lia].
      destruct (IH _ S2 ltac:(lia)) as (a & Ha & Hw). exists (S a). split.
      + eapply rev_advance; [constructor|].
        unfold mach in Ha. rewrite B1, B2 in Ha.
        replace (Z.to_nat (b_sv c + 1)) with (S (Z.to_nat (b_sv c))) in Ha by lia.
        destruct B3 as [[B3 B4]|(B3 & B4 & v & B5)].
        * rewrite B3, B4 in Ha. exact Ha.
        * rewrite B4, B5 in Ha. pose proof Hst as (A1 & A2 & _).
          eapply rev_other; [apply do_store|discriminate|].
          { rewrite (stored_length _ _ Hst). lia. }
          assert (E : stored_of (b_index c + 1) (upd (b_res c) (Z.to_nat (b_index c)) (b_sv c + 1, v)) =
                      S (Z.to_nat (b_sv c)) :: stored_of (b_index c) (b_res c)).
          { unfold stored_of. replace (Z.to_nat (b_index c + 1)) with (S (Z.to_nat (b_index c))) by lia.
            rewrite (firstn_snoc _ _ (b_sv c + 1, v)) by (apply nth_error_upd_same; lia).
            rewrite firstn_upd, map_app, rev_app_distr. cbn [map rev app fst].
            replace (Z.to_nat (b_sv c + 1)) with (S (Z.to_nat (b_sv c))) by lia. reflexivity. }
          rewrite E in Ha. exact Ha.
      + intros [|fuel]; [cbn; split; [congruence|lia]|]. cbn [while]. rewrite Hc, Hw, B2. lia.
  Qed.
End Schedule.
