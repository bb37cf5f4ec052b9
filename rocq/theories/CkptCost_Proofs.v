From Verif Require Import Base Ckpt_Model Ckpt_Spec Ckpt_Proofs Ckpt_Proofs2 Ckpt_Proofs3 CkptCost_Spec.
From Coq Require Import Permutation Sorted.

Local Open Scope nat_scope.

(** * Lower bound for every schedule *)
Definition avail (m : machine) (k : nat) : bool :=
  existsb (Nat.eqb k) (m_cur m :: m_stored m).
Definition missing (m : machine) : nat :=
  length (List.filter (fun k => negb (avail m k)) (seq 0 (m_sg m))).

Lemma filter_le {A} (p q : A -> bool) l : (forall x, p x = true -> q x = true) ->
  length (List.filter p l) <= length (List.filter q l).
Proof.
  intros H. induction l as [|x l IH]; cbn; auto.
  destruct (p x) eqn:E; [rewrite (H x E); cbn; lia|]. destruct (q x); cbn; lia.
Qed.

Lemma filter_one_less (p q : nat -> bool) c l : NoDup l -> (forall x, p x = true -> x = c \/ q x = true) ->
  length (List.filter p l) <= S (length (List.filter q l)).
Proof.
  intros Hnd H. induction Hnd as [|x l Hx Hnd IH]; cbn; [lia|].
  destruct (Nat.eq_dec x c) as [->|Hne].
  - assert (E : length (List.filter p l) <= length (List.filter q l)).
    { clear IH. revert Hx. clear - H. induction l as [|y l IH]; cbn; intros Hn; auto.
      assert (y <> c) by (intros ->; apply Hn; auto).
      specialize (IH (fun h => Hn (or_intror h))).
      destruct (p y) eqn:E; [|destruct (q y); cbn; lia].
      destruct (H y E) as [?|E2]; [congruence|]. rewrite E2. cbn. lia. }
    destruct (p c), (q c); cbn; lia.
  - destruct (p x) eqn:E; [|destruct (q x); cbn; lia].
    destruct (H x E) as [?|E2]; [congruence|]. rewrite E2. cbn. lia.
Qed.

Lemma avail_spec m k : avail m k = true <-> k = m_cur m \/ In k (m_stored m).
Proof.
  unfold avail. rewrite existsb_exists. split.
  - intros (x & [<-|Hx] & E); apply Nat.eqb_eq in E; subst; auto.
  - intros [->|Hx]; [exists (m_cur m)|exists k]; cbn; rewrite Nat.eqb_refl; auto.
Qed.

Lemma missing_le C m o m' : does C m o m' -> o <> Advance -> missing m <= missing m'.
Proof.
  intros Hd Ho. unfold missing. inversion Hd; subst; cbn [m_sg]; try congruence.
  - apply filter_le. intros x Hx. apply negb_true_iff in Hx. apply negb_true_iff.
    apply not_true_iff_false. apply not_true_iff_false in Hx. intros Hy. apply Hx.
    apply avail_spec in Hy. apply avail_spec. cbn in *. intuition.
  - apply filter_le. intros x Hx. apply negb_true_iff in Hx. apply negb_true_iff.
    apply not_true_iff_false. apply not_true_iff_false in Hx. intros Hy. apply Hx.
    apply avail_spec in Hy. apply avail_spec. cbn in *. rewrite in_app_iff in *. cbn. intuition.
  - apply filter_le. intros x Hx. apply negb_true_iff in Hx. apply negb_true_iff.
    apply not_true_iff_false. apply not_true_iff_false in Hx. intros Hy. apply Hx.
    apply avail_spec in Hy. apply avail_spec. cbn in *. intuition. subst; auto.
  - rewrite seq_S, filter_app. cbn [List.filter plus].
    replace (avail _ c) with true by (symmetry; apply avail_spec; cbn; auto). cbn [negb].
    rewrite app_nil_r. auto.
Qed.

Lemma missing_advance C m m' : does C m Advance m' -> missing m <= S (missing m').
Proof.
  intros Hd. unfold missing. inversion Hd; subst; cbn [m_sg].
  apply (filter_one_less _ _ (S c)); [apply seq_NoDup|]. intros x Hx.
  destruct (Nat.eq_dec x (S c)); [auto|right].
  apply negb_true_iff in Hx. apply negb_true_iff.
  apply not_true_iff_false. apply not_true_iff_false in Hx. intros Hy. apply Hx.
  apply avail_spec in Hy. apply avail_spec. cbn in *. intuition.
Qed.

Lemma reverses_lower C m a : reverses C m a -> missing m <= a.
Proof.
  induction 1 as [m H|m m' a Hd H IH|m o m' a Hd Ho H IH].
  - unfold missing. rewrite H. cbn. lia.
  - pose proof (missing_advance _ _ _ Hd). lia.
  - pose proof (missing_le _ _ _ _ Hd Ho). lia.
Qed.

Lemma missing_after n stored : n <= missing (after_forward n stored) + length stored.
Proof.
  unfold missing, after_forward. cbn [m_sg].
  set (p := avail _).
  assert (E : length (seq 0 n) = length (List.filter p (seq 0 n)) + length (List.filter (fun k => negb (p k)) (seq 0 n))).
  { generalize (seq 0 n). generalize p. clear p. intros p. induction l as [|x l IH]; cbn; auto. destruct (p x); cbn; lia. }
  rewrite seq_length in E.
  assert (length (List.filter p (seq 0 n)) <= length stored); [|lia].
  apply NoDup_incl_length; [apply NoDup_filter, seq_NoDup|].
  intros x Hx. apply filter_In in Hx. destruct Hx as [H1 H2]. apply in_seq in H1.
  apply avail_spec in H2. cbn in H2. destruct H2; [lia|auto].
Qed.

Local Open Scope Z_scope.

(** * The backward pass, when every gap is within budget *)
Section Bwd.
  Context {N Bf G P : Type}.
  Variable fN : N -> Bf -> N.
  Variable fB : N -> Bf -> Bf.
  Variable intmax : Z.
  Variable fill : N.
  Variable C : Z.
  Variable max_steps : option Z.
  Variables (v0 : N) (b0 : Bf).
  Hypothesis HC : 1 <= C.
  Variable vjp : N -> Bf -> G -> P * G.
  Variable addP : P -> P -> P.
  Variable n : nat.
  Hypothesis Hn : Z.of_nat n < intmax.
  Hypothesis Hin : within C max_steps n.
  Hypothesis Hwo : buffers_write_once fN fB vjp v0 b0 n.
  Notation bufs := (snd (traj fN fB v0 b0 n)).
  Notation bwd_body := (bwd_body fN intmax fill C max_steps vjp addP bufs).
  Notation inv := (bwd_inv fN fB intmax fill C max_steps v0 b0 vjp addP n).
  Notation stack_ok := (stack_ok fN fB C max_steps v0 b0 n).
  Notation top := (top intmax fill).
  Notation calc_next := (calc_next intmax C).
  Notation all_saved := (all_saved C max_steps).

  (** The gap above stored value [k] (up to the next one, or to [e]) fits the budget. *)
  Definition budget (index : Z) (res : list (Z * N)) (e : Z) : Prop :=
    forall k s v, nth_error res k = Some (s, v) -> Z.of_nat k < index ->
      (forall s' v', nth_error res (S k) = Some (s', v') -> Z.of_nat (S k) < index ->
         s' - s <= C + 1 - Z.of_nat k) /\
      (Z.of_nat (S k) = index -> e - s <= C + 1 - Z.of_nat k).

  Lemma budget_le index res e e' : budget index res e -> e' <= e -> budget index res e'.
  Proof.
    intros H He k s v Hk Hlt. destruct (H k s v Hk Hlt) as [H1 H2]. split; [exact H1|].
    intros Hx. specialize (H2 Hx). lia.
  Qed.

  Lemma budget_pop index res e : stack_ok index res -> 0 < index -> budget index res e ->
    budget (index - 1) res (top index res).
  Proof.
    intros Hst Hi H k s v Hk Hlt. destruct (H k s v Hk ltac:(lia)) as [H1 _]. split.
    - intros s' v' Hk' Hlt'. apply (H1 s' v'); auto. lia.
    - intros Hx. destruct (top_spec fN fB intmax fill C max_steps v0 b0 HC n _ _ Hst Hi) as (v' & Ht & _).
      replace (Z.to_nat (index - 1)) with (S k) in Ht by lia. apply (H1 _ _ Ht). lia.
  Qed.

  Lemma budget_top index res e : stack_ok index res -> 0 < index -> budget index res e ->
    e - top index res - 2 <= C - index.
  Proof.
    intros Hst Hi H. destruct (top_spec fN fB intmax fill C max_steps v0 b0 HC n _ _ Hst Hi) as (v' & Ht & _).
    destruct (H _ _ _ Ht ltac:(lia)) as [_ H2]. specialize (H2 ltac:(lia)). lia.
  Qed.

  (** Remaining iterations of the backward loop. *)
  Definition lin (c : bcarry (N:=N) (G:=G) (P:=P)) (r : Z) : Prop :=
    (0 < b_index c /\ b_sv c = top (b_index c) (b_res c) /\ b_sv c + 2 <= b_sg c /\ all_saved = false /\
     b_next c = calc_next (b_sv c) (b_sg c) (b_index c) /\
     budget (b_index c) (b_res c) (b_sg c) /\ r = 2 * b_sg c - b_index c) \/
    (0 < b_index c /\ b_sv c = top (b_index c) (b_res c) + 1 /\ b_sv c + 1 = b_sg c /\ all_saved = false /\ b_next c = intmax /\
     budget (b_index c) (b_res c) (b_sg c) /\ r = 2 * b_sg c - b_index c - 1) \/
    (b_sv c + 1 = b_sg c /\ popped intmax fill C max_steps c /\
     budget (b_index c) (b_res c) (b_sv c) /\ r = 2 * b_sg c - b_index c - 1).

  Lemma load_lin sg index res g p :
    stack_ok index res -> 0 < index -> top index res < sg ->
    (all_saved = true -> top index res + 1 = sg) ->
    budget index res sg ->
    let '(sv, val, index2) := load intmax fill C max_steps sg index res in
    lin {| b_sv := sv; b_sg := sg; b_next := calc_next sv sg index2; b_index := index2;
           b_val := val; b_g := g; b_p := p; b_res := res |} (2 * sg - index).
  Proof.
    intros Hst Hi Htop Hall Hbud. unfold load.
    destruct (top_spec fN fB intmax fill C max_steps v0 b0 HC n _ _ Hst Hi) as (v & Hn1 & Hn2 & Hr & Hv). rewrite Hn2.
    replace (Z.max (index - 1) 0) with (index - 1) by lia.
    assert (Hpop : top index res + 1 = sg ->
      lin {| b_sv := top index res; b_sg := sg; b_next := calc_next (top index res) sg (index - 1);
             b_index := index - 1; b_val := v; b_g := g; b_p := p; b_res := res |} (2 * sg - index)).
    { intros Heq. right; right. cbn [b_sv b_sg b_next b_index b_val b_g b_p b_res].
      pose proof Hst as (A1 & A2 & A3 & A4 & A5 & A6).
      split; [auto|]. split; [|split; [eapply budget_pop; eauto|lia]].
      unfold popped. cbn [b_sv b_sg b_next b_index b_val b_g b_p b_res].
      split; [auto|]. split; [|split; [|split]].
      - intros Hpos. assert (Hst2 : stack_ok (index - 1) res) by (eapply stack_ok_pop; eauto; lia).
        destruct (top_spec fN fB intmax fill C max_steps v0 b0 HC n _ _ Hst2 Hpos) as (v2 & Hn3 & _).
        eapply A4; [exact Hn3|exact Hn1|lia|lia].
      - intros H1. replace (index - 1) with 0 in Hn1 by lia. eapply A5; eauto.
      - apply (calc_next_none _ _ n). right; left; exact Heq.
      - intros Ha. specialize (A6 Ha _ _ _ Hn1 ltac:(lia)). lia. }
    destruct all_saved eqn:Ea; [apply Hpop; auto|].
    destruct (Z.eqb_spec (top index res + 1) sg) as [Heq|Hne]; [apply Hpop; auto|].
    left. cbn [b_sv b_sg b_next b_index b_val b_g b_p b_res].
    split; [auto|]. split; [auto|]. split; [lia|]. split; [auto|]. split; [auto|]. split; [auto|lia].
  Qed.

  Lemma lin_step g p c r : inv g p c -> lin c r ->
    (0 < b_sg (bwd_body c) /\ lin (bwd_body c) (r - 1)) \/ (b_sg (bwd_body c) = 0 /\ r = 1).
  Proof.
    intros (Hsv & Hsg & Hval & Hst & Hkp & Hbp) HL.
    unfold Ckpt_Model.bwd_body.
    destruct HL as [(Hi & Htop & H2 & Ha & Hnx & Hb & Hr)|HL].
    - (* advance from a stored value *)
      rewrite Ha. destruct (Z.eqb_spec (b_sv c + 1) (b_sg c)) as [E|_]; [lia|].
      left. unfold maybe_save. cbn [b_sv b_sg b_next b_index b_val b_g b_p b_res].
      pose proof (budget_top _ _ _ Hst Hi Hb) as Hbt.
      pose proof Hst as (A1 & A2 & A3 & A4 & A5 & A6).
      destruct (Z.eq_dec (b_sv c + 2) (b_sg c)) as [E2|E2].
      + (* straight to a U-turn *)
        rewrite (calc_next_none _ _ n) in Hnx by lia.
        destruct (Z.eqb_spec (b_sv c + 1) (b_next c)) as [E|_]; [lia|].
        split; [lia|]. right; left. cbn [b_sv b_sg b_next b_index b_val b_g b_p b_res].
        unfold maybe_update. split; [auto|]. split; [lia|]. split; [lia|]. split; [auto|]. split; [exact Hnx|]. split; [auto|lia].
      + (* the next value is stored *)
        assert (Hnx' : b_next c = b_sv c + 1).
        { rewrite Hnx. unfold Ckpt_Model.calc_next.
          replace ((b_index c =? C) || (b_sv c + 1 =? b_sg c) || (b_sv c + 2 =? b_sg c)) with false by lia.
          replace (b_sg c - b_sv c - 2 <=? C - b_index c) with true by lia. reflexivity. }
        destruct (Z.eqb_spec (b_sv c + 1) (b_next c)) as [_|E]; [|lia].
        assert (Hix : clampi (length (b_res c)) (b_index c) = Z.to_nat (b_index c)) by (apply clampi_in; lia).
        set (x := (b_sv c + 1, fN (b_val c) bufs)).
        assert (Htp : top (b_index c + 1) (upd (b_res c) (Z.to_nat (b_index c)) x) = b_sv c + 1).
        { unfold Ckpt_Proofs2.top. replace (b_index c + 1 - 1) with (b_index c) by lia.
          erewrite nth_error_nth; [|apply nth_error_upd_same; lia]. reflexivity. }
        split; [lia|]. left. cbn [b_sv b_sg b_next b_index b_val b_g b_p b_res].
        unfold maybe_update. rewrite Hix. fold x. rewrite Htp.
        split; [lia|]. split; [auto|]. split; [lia|]. split; [auto|]. split; [reflexivity|].
        split; [|lia].
        intros k s v Hk Hlt. rewrite nth_error_upd in Hk.
        destruct (Nat.eqb_spec k (Z.to_nat (b_index c))) as [Ek|Ek].
        * destruct (Nat.ltb _ _); inversion Hk; subst s v. split; [intros; lia|]. intros _. lia.
        * destruct (Hb k s v Hk ltac:(lia)) as [B1 B2]. split; [|intros; lia].
          intros s' v' Hk' Hlt'. rewrite nth_error_upd in Hk'.
          destruct (Nat.eqb_spec (S k) (Z.to_nat (b_index c))) as [Ek'|Ek'].
          -- destruct (Nat.ltb _ _); inversion Hk'; subst s' v'. specialize (B2 ltac:(lia)). lia.
          -- apply (B1 s' v' Hk'). lia.
    - (* U-turn *)
      assert (Hs1 : b_sv c + 1 = b_sg c) by (destruct HL as [H|H]; tauto).
      replace (if all_saved then true else b_sv c + 1 =? b_sg c) with true
        by (destruct all_saved; [auto|symmetry; apply Z.eqb_eq; auto]).
      destruct (vjp (b_val c) bufs (b_g c)) as [pu g2] eqn:Ev.
      assert (Hr : r = 2 * b_sg c - b_index c - 1) by (destruct HL as [H|H]; tauto).
      assert (Hb : budget (b_index c) (b_res c) (b_sg c - 1)).
      { destruct HL as [(_ & _ & _ & _ & _ & H & _)|(_ & _ & H & _)];
        [eapply budget_le; eauto; lia|replace (b_sg c - 1) with (b_sv c) by lia; auto]. }
      assert (Hstk : b_index c = 0 /\ b_sg c = 1 \/
                     0 < b_index c /\ top (b_index c) (b_res c) < b_sg c - 1 /\
                     (all_saved = true -> top (b_index c) (b_res c) + 1 = b_sg c - 1)).
      { pose proof Hst as (A1 & A2 & A3 & A4 & A5 & A6).
        destruct HL as [(K1 & K2 & K3 & K4 & _)|(P0 & (P1 & P2 & P3 & P4 & P5) & _)].
        - right. split; [auto|]. split; [lia|]. congruence.
        - destruct (Z.eq_dec (b_index c) 0) as [Hz|Hz]; [left; specialize (P3 Hz); lia|right].
          split; [lia|]. split; [specialize (P2 ltac:(lia)); lia|].
          intros Ha. specialize (P5 Ha).
          destruct (top_spec fN fB intmax fill C max_steps v0 b0 HC n _ _ Hst ltac:(lia)) as (v & Hn1 & _).
          specialize (A6 Ha _ _ _ Hn1 ltac:(lia)). lia. }
      destruct Hstk as [[Hz Hz']|(Hi & Ht & Hta)].
      + right. destruct (load intmax fill C max_steps (b_sg c - 1) (b_index c) (b_res c)) as [[sv2 val2] ix2].
        split; [|lia]. rewrite Hz'. destruct all_saved; [|unfold maybe_save]; reflexivity.
      + left. destruct (top_spec fN fB intmax fill C max_steps v0 b0 HC n _ _ Hst Hi) as (_ & _ & _ & Hrg & _).
        pose proof (load_lin (b_sg c - 1) (b_index c) (b_res c) g2 (addP (b_p c) pu) Hst Hi Ht Hta Hb) as HL2.
        assert (Hix2 : snd (load intmax fill C max_steps (b_sg c - 1) (b_index c) (b_res c)) <= C).
        { destruct Hst as (_ & A2 & _). unfold load. destruct (nth _ _ _).
          destruct (if all_saved then true else _); cbn [snd]; lia. }
        destruct (load intmax fill C max_steps (b_sg c - 1) (b_index c) (b_res c)) as [[sv2 val2] ix2].
        cbn [snd] in Hix2.
        set (c2 := {| b_sv := sv2 |}) in *.
        assert (Hne : all_saved = false -> b_sv c2 <> b_next c2).
        { intros Ha. destruct HL2 as [(L1 & L2 & L3 & L4 & L5 & L6 & _)|[(L1 & L2 & L3 & L4 & L5)|(L1 & L2 & _)]].
          - rewrite L5. destruct (Z.eq_dec (b_index c2) C) as [Hc|Hc]; [rewrite (calc_next_none _ _ n) by lia; cbn in *; lia|].
            destruct (Z.eq_dec (b_sv c2 + 2) (b_sg c2)) as [Hc2|Hc2]; [rewrite (calc_next_none _ _ n) by lia; cbn in *; lia|].
            assert (b_index c2 <= C) by exact Hix2.
            pose proof (calc_next_spec intmax C n (b_sv c2) (b_sg c2) (b_index c2)). lia.
          - destruct L5 as [L5 _]. rewrite L5. cbn in *. lia.
          - destruct L2 as (_ & _ & _ & L2 & _). rewrite L2. cbn in *. lia. }
        replace (if all_saved then c2 else maybe_save intmax C c2) with c2.
        2:{ destruct all_saved eqn:Ea; [auto|]. unfold maybe_save.
            destruct (Z.eqb_spec (b_sv c2) (b_next c2)) as [E|E]; [destruct (Hne eq_refl E)|reflexivity]. }
        split; [cbn; lia|]. replace (r - 1) with (2 * (b_sg c - 1) - b_index c) by lia. exact HL2.
  Qed.

  Lemma stack_ge index res : stack_ok index res -> forall k s v,
    nth_error res k = Some (s, v) -> Z.of_nat k < index -> Z.of_nat k <= s.
  Proof.
    intros (A1 & A2 & A3 & A4 & _). induction k as [|k IH]; intros s v Hk Hlt.
    - destruct (A3 _ _ _ Hk Hlt). lia.
    - destruct (nth_error res k) as [[s' v']|] eqn:E.
      2:{ apply nth_error_None in E. assert (S k < length res)%nat by (apply nth_error_Some; congruence). lia. }
      specialize (IH _ _ eq_refl ltac:(lia)).
      pose proof (A4 k (S k) _ _ _ _ E Hk ltac:(lia) Hlt). lia.
  Qed.

  Lemma stack_top_ge index res : stack_ok index res -> 0 < index -> index <= top index res + 1.
  Proof.
    intros Hst Hi. destruct (top_spec fN fB intmax fill C max_steps v0 b0 HC n _ _ Hst Hi) as (v & Ht & _).
    pose proof (stack_ge _ _ Hst _ _ _ Ht ltac:(lia)). lia.
  Qed.

  Lemma lin_count g p : forall m c, inv g p c -> lin c (Z.of_nat m) -> forall fuel,
    while fuel bwd_cond bwd_body c <> None <-> (m < fuel)%nat.
  Proof.
    induction m as [|m IH]; intros c Hi HL fuel.
    - exfalso. destruct Hi as (I1 & I2 & _ & Hst & _). pose proof (stack_top_ge _ _ Hst) as Hge.
      destruct HL as [(L1 & L2 & L3 & _ & _ & _ & L4)|[(L1 & L2 & L3 & _ & _ & _ & L4)|(L1 & (_ & L2 & L3 & _) & _ & L4)]].
      + specialize (Hge L1). lia.
      + specialize (Hge L1). lia.
      + destruct (Z.eq_dec (b_index c) 0) as [E|E]; [specialize (L3 E); lia|].
        destruct Hst as (_ & Hr & _). specialize (Hge ltac:(lia)). specialize (L2 ltac:(lia)). lia.
    - destruct fuel as [|fuel]; [cbn; split; [congruence|lia]|]. cbn [while].
      assert (Hsg : bwd_cond c = true) by (destruct Hi as (I1 & _); unfold bwd_cond; lia).
      rewrite Hsg.
      destruct (lin_step g p c _ Hi HL) as [[H1 H2]|[H1 H2]].
      + replace (Z.of_nat (S m) - 1) with (Z.of_nat m) in H2 by lia.
        destruct (bwd_step fN fB intmax fill C max_steps v0 b0 HC vjp addP n Hn Hwo g p c Hi)
          as [(_ & H3 & _)|[H3 _]]; [|lia].
        rewrite (IH _ H3 H2 fuel). lia.
      + destruct fuel as [|fuel]; [cbn; split; [congruence|lia]|].
        cbn [while]. unfold bwd_cond at 1. rewrite H1. cbn [Z.ltb Z.compare].
        split; [lia|discriminate].
  Qed.

  Lemma lin_init res g p :
    stack_ok (Z.min (Z.of_nat n) C) res -> n <> O ->
    (all_saved = true -> top (Z.min (Z.of_nat n) C) res + 1 = Z.of_nat n) ->
    budget (Z.min (Z.of_nat n) C) res (Z.of_nat n) ->
    lin (bwd_init intmax fill C max_steps (Z.of_nat n) g p res)
        (2 * Z.of_nat n - Z.min (Z.of_nat n) C).
  Proof.
    intros Hst Hz Ht Hb. unfold bwd_init.
    assert (Hi : 0 < Z.min (Z.of_nat n) C) by lia.
    destruct (top_spec fN fB intmax fill C max_steps v0 b0 HC n _ _ Hst Hi) as (_ & _ & _ & Hrg & _).
    pose proof (load_lin (Z.of_nat n) _ res g p Hst Hi ltac:(lia) Ht Hb) as HL.
    destruct (load _ _ _ _ _ _ _) as [[sv val] ix]. exact HL.
  Qed.
End Bwd.
