From Verif Require Import Base Ckpt_Model Ckpt_Spec Ckpt_Proofs Ckpt_Proofs2 Ckpt_Proofs3 CkptCost_Spec CkptCost_Proofs CkptCost_Proofs2 CkptExact_Spec.
Local Open Scope Z_scope.

(** * The recursion *)
Lemma reversal_total : forall (m : nat) l k, 1 <= l <= Z.of_nat m -> 0 <= k -> exists a, reversal k l a /\ 0 <= a.
Proof.
  induction m as [|m IH]; intros l k Hl Hk; [lia|].
  destruct (Z.eq_dec l 1) as [->|H1]; [exists 0; split; [constructor|lia]|].
  destruct (Z.eq_dec k 0) as [Hk0|Hk0]; [|destruct (Z.eq_dec l 2) as [Hl2|Hl2]].
  - destruct (IH (l - 1) k) as (a & Ha & H0); [lia|lia|]. exists (l - 1 + a). split; [constructor; auto; lia|lia].
  - destruct (IH (l - 1) k) as (a & Ha & H0); [lia|lia|]. exists (l - 1 + a). split; [constructor; auto; lia|lia].
  - set (d := if l - 2 <=? k then 1 else l / 2).
    assert (Hd : 1 <= d /\ d <= l - 2 /\ (l - 2 <= k -> d = 1) /\ (k < l - 2 -> 2 * d <= l < 2 * d + 2)).
    { unfold d. pose proof (Z.div_mod l 2). pose proof (Z.mod_pos_bound l 2). destruct (Z.leb_spec (l - 2) k); lia. }
    destruct Hd as (D1 & D2 & D3 & D4).
    destruct (IH (l - d) (k - 1)) as (a & Ha & Ha0); [lia|lia|]. destruct (IH d k) as (b & Hb & Hb0); [lia|lia|].
    exists (d + a + b). split; [constructor; auto; lia|lia].
Qed.
Lemma reversal_fun k l a : reversal k l a -> forall b, reversal k l b -> a = b.
Proof.
  induction 1 as [k|k l a Hl Hk H IH|k l d a b Hl Hk D1 D2 Ha IHa Hb IHb]; intros x Hx.
  - inversion Hx; subst; lia.
  - inversion Hx as [|? ? a' ? ? Hx'|? ? d' a' b' L K E1 E2 X Y]; subst; [lia|rewrite (IH _ Hx'); reflexivity|lia].
  - inversion Hx as [|? ? a' ? ? Hx'|? ? d' a' b' L K E1 E2 X Y]; subst; [lia|lia|].
    assert (E : d' = d) by (destruct (Z.le_gt_cases (l - 2) k); [rewrite D1, E1 by lia; reflexivity|lia]). subst d'.
    rewrite (IHa _ X), (IHb _ Y). reflexivity.
Qed.
Lemma reversal_pos k l a : reversal k l a -> 1 <= l /\ l - 1 <= a.
Proof.
  induction 1 as [k|k l a Hl Hk H IH|k l d a b Hl Hk D1 D2 Ha IHa Hb IHb]; lia.
Qed.
Lemma segments_fun C l e a : segments C l e a -> forall b, segments C l e b -> a = b.
Proof.
  induction 1 as [|s l e a b Hs Ha Hb IH]; intros x Hx; inversion Hx as [|? ? ? a' b' L X Y]; subst; [reflexivity|].
  rewrite (reversal_fun _ _ _ Ha _ X), (IH _ Y). reflexivity.
Qed.
Lemma segments_pos C l e a : segments C l e a -> 0 <= e /\ 0 <= a.
Proof. induction 1 as [|s l e a b Hs Ha Hb IH]; [lia|]. apply reversal_pos in Ha. lia. Qed.

(** * Bounds *)
(** If what is left fits into the free slots, everything is evaluated once. *)
Lemma reversal_linear k l a : reversal k l a -> l - 2 <= k -> a = l - 1.
Proof.
  induction 1 as [k|k l a Hl Hk H IH|k l d a b Hl Hk D1 D2 Ha IHa Hb IHb]; intros Hle; [lia| |].
  - destruct Hk as [->| ->]; [assert (l = 2) by lia; subst|]; inversion H; subst; lia.
  - specialize (D1 Hle). subst d. rewrite IHa by lia. inversion Hb; subst; lia.
Qed.
(** Up to twice as many steps as [2 ^ k]: logarithmically often. *)
Lemma log2_up_half l d : 2 <= l -> 2 * d <= l < 2 * d + 2 -> Z.log2_up (l - d) = Z.log2_up l - 1 /\ Z.log2_up d <= Z.log2_up l - 1 .
Proof.
  intros Hl Hd. assert (E : Z.log2_up (l - d) = Z.log2_up l - 1).
  { destruct (Z.eq_dec (l - d) 1) as [E|E]; [assert (l = 2) by lia; subst l; rewrite E; reflexivity|].
    pose proof (Z.log2_up_spec l ltac:(lia)) as [L1 L2].
    assert (0 < Z.log2_up l) by (apply Z.log2_up_pos; lia).
    destruct (Z.eq_dec (Z.log2_up l) 1) as [E1|E1].
    { rewrite E1 in L2. change (2 ^ 1) with 2 in L2. lia. }
    apply Z.log2_up_unique; [lia|].
    replace (Z.pred (Z.log2_up l - 1)) with (Z.log2_up l - 2) by lia.
    replace (Z.pred (Z.log2_up l)) with (Z.succ (Z.log2_up l - 2)) in L1 by lia.
    replace (Z.log2_up l) with (Z.succ (Z.log2_up l - 1)) in L2 by lia.
    rewrite Z.pow_succ_r in L1, L2 by lia.
    replace (Z.log2_up l - 1) with (Z.succ (Z.log2_up l - 2)) in L2 |- * by lia. rewrite Z.pow_succ_r in * by lia. lia. }
  split; [exact E|]. rewrite <- E. apply Z.log2_up_le_mono. lia.
Qed.
Lemma reversal_log k l a : reversal k l a -> 0 <= k -> l <= 2 ^ (k + 1) -> 2 * a <= l * Z.log2_up l.
Proof.
  induction 1 as [k|k l a Hl Hk H IH|k l d a b Hl Hk D1 D2 Ha IHa Hb IHb]; intros K0 Hle.
  - cbn. lia.
  - assert (l = 2) by (destruct Hk as [->|]; [change (2 ^ (0 + 1)) with 2 in Hle|]; lia). subst l. inversion H; subst; [cbn; lia|lia|lia].
  - destruct (Z.le_gt_cases (l - 2) k) as [HL|HL].
    + assert (E : d + a + b = l - 1).
      { apply (reversal_linear k l); [econstructor; eauto|exact HL]. }
      rewrite E. assert (2 <= Z.log2_up l). { change 2 with (Z.log2_up 3). apply Z.log2_up_le_mono. lia. } nia.
    + specialize (D2 HL). destruct (log2_up_half l d) as [E1 E2]; [lia|lia|].
      replace (k - 1 + 1) with k in IHa by lia. rewrite <- Z.add_1_r in * || idtac.
      replace (2 ^ (k + 1)) with (2 * 2 ^ k) in Hle by (rewrite Z.add_1_r, Z.pow_succ_r by lia; reflexivity).
      assert (H2k : 0 < 2 ^ k) by (apply Z.pow_pos_nonneg; lia).
      specialize (IHa ltac:(lia) ltac:(lia)).
      assert (IHb' : 2 * b <= d * Z.log2_up d). { apply IHb; [lia|]. rewrite Z.add_1_r, Z.pow_succ_r by lia. lia. }
      rewrite E1 in IHa. assert (d * Z.log2_up d <= d * (Z.log2_up l - 1)) by (apply Z.mul_le_mono_nonneg_l; lia). nia.
Qed.
(** In general. *)
Lemma reversal_bound k l a : reversal k l a -> 0 <= k -> forall q, l <= q * 2 ^ k -> 2 * a <= l * (k + q).
Proof.
  induction 1 as [k|k l a Hl Hk H IH|k l d a b Hl Hk D1 D2 Ha IHa Hb IHb]; intros K0 q Hq.
  - assert (0 < 2 ^ k) by (apply Z.pow_pos_nonneg; lia). nia.
  - assert (H2k : 0 < 2 ^ k) by (apply Z.pow_pos_nonneg; lia). assert (0 < q) by nia. destruct Hk as [->| ->].
    + change (2 ^ 0) with 1 in *. specialize (IH ltac:(lia) (l - 1) ltac:(lia)). nia.
    + inversion H; subst; nia.
  - assert (H2k : 0 < 2 ^ (k - 1)) by (apply Z.pow_pos_nonneg; lia).
    assert (E2 : 2 ^ k = 2 * 2 ^ (k - 1)) by (rewrite <- Z.pow_succ_r by lia; f_equal; lia).
    assert (0 < q) by nia.
    assert (Hr : reversal k l (d + a + b)) by (econstructor; eauto).
    destruct (Z.eq_dec q 1) as [->|Hq1].
    { pose proof (reversal_log _ _ _ Hr ltac:(lia)) as HL. rewrite Z.add_1_r, Z.pow_succ_r in HL by lia. specialize (HL ltac:(lia)).
      assert (Z.log2_up l <= k). { rewrite <- (Z.log2_up_pow2 k) by lia. apply Z.log2_up_le_mono. lia. }
      assert (l * Z.log2_up l <= l * k) by (apply Z.mul_le_mono_nonneg_l; lia). nia. }
    destruct (Z.le_gt_cases (l - 2) k) as [HL|HL].
    + rewrite (reversal_linear _ _ _ Hr HL). nia.
    + specialize (D2 HL).
      specialize (IHa ltac:(lia) q). assert (Ha2 : l - d <= q * 2 ^ (k - 1)) by nia. specialize (IHa Ha2).
      specialize (IHb ltac:(lia) (q - 1)). assert (Hb2 : d <= (q - 1) * 2 ^ k) by nia. specialize (IHb Hb2). nia.
Qed.

(** * The backward pass *)
(** With a fixed number of slots the cost of a segment is quadratic in its length. *)
Lemma reversal_square : forall k l a, reversal k l a -> 0 <= k -> l * l <= 3 ^ k * (2 * a + l).
Proof.
  induction 1 as [k|k l a Hl Hk H IH|k l d a b Hl Hk D1 D2 Ha IHa Hb IHb]; intros H0.
  - pose proof (Z.pow_pos_nonneg 3 k ltac:(lia) H0). lia.
  - specialize (IH H0). pose proof (Z.pow_pos_nonneg 3 k ltac:(lia) H0).
    destruct Hk as [-> | ->]; [change (3 ^ 0) with 1 in *; nia|]. 
    apply reversal_pos in H as [_ ?]. nia.
  - specialize (IHa ltac:(lia)). specialize (IHb H0). apply reversal_pos in Ha as [? _]. apply reversal_pos in Hb as [? _].
    assert (E : 3 ^ k = 3 * 3 ^ (k - 1)) by (replace k with (1 + (k - 1)) at 1 by lia; rewrite Z.pow_add_r by lia; reflexivity).
    pose proof (Z.pow_pos_nonneg 3 (k - 1) ltac:(lia) ltac:(lia)) as Hp. rewrite E in *. set (q := 3 ^ (k - 1)) in *.
    assert (Hd : 2 * d <= l) by (destruct (Z.le_gt_cases (l - 2) k); [specialize (D1 H2); lia|specialize (D2 H2); lia]).
    assert (S1 : 0 <= (l - d) * (l - 2 * d)) by (apply Z.mul_nonneg_nonneg; lia).
    assert (S2 : l * l <= 3 * ((l - d) * (l - d)) + d * d) by (clear - S1; nia).
    assert (S3 : 0 <= q * d) by (apply Z.mul_nonneg_nonneg; lia).
    replace (3 * q * (2 * (d + a + b) + l)) with (3 * (q * (2 * a + (l - d))) + 3 * q * (2 * b + d) + 6 * (q * d)) by ring.
    clear - S2 S3 IHa IHb. lia.
Qed.
Lemma segments_square C : forall stored n a, segments C stored n a -> Z.of_nat (length stored) <= C ->
  n * n <= Z.of_nat (length stored) * (3 ^ (C - 1) * (2 * a + n)).
Proof.
  induction 1 as [|s l e a b Hs Ha Hb IH]; intros HL; [lia|]. cbn [length] in *. rewrite Nat2Z.inj_succ in *.
  specialize (IH ltac:(lia)). apply reversal_square in Ha as HA; [|lia]. apply reversal_pos in Ha as [_ ?].
  apply segments_pos in Hb as [? ?].
  assert (Hm : 3 ^ (C - Z.succ (Z.of_nat (length l))) <= 3 ^ (C - 1)) by (apply Z.pow_le_mono_r; lia).
  assert (HA' : (e - s) * (e - s) <= 3 ^ (C - 1) * (2 * a + (e - s))).
  { eapply Z.le_trans; [exact HA|]. apply Z.mul_le_mono_nonneg_r; lia. }
  set (q := 3 ^ (C - 1)) in *. set (L := Z.of_nat (length l)) in *.
  set (x := q * (2 * a + (e - s))) in *. set (y := q * (2 * b + s)) in *.
  assert (Hy : 0 <= L) by (unfold L; lia).
  replace (q * (2 * (a + b) + e)) with (x + y) by (unfold x, y; ring).
  set (u := e - s) in *. replace e with (u + s) by (unfold u; ring). assert (Hx : 0 <= x) by (pose proof (Z.square_nonneg u); lia).
  assert (Hy' : 0 <= y) by (apply Z.mul_nonneg_nonneg; [apply Z.pow_nonneg|]; lia).
  clearbody u x y L q. clear - HA' IH Hy Hx Hy'.
  destruct (Z.eq_dec L 0) as [->|HL0].
  { assert (s = 0) by (pose proof (Z.square_nonneg s); nia). subst s. nia. }
  assert (K : 0 <= (L * u - s) * (L * u - s)) by apply Z.square_nonneg.
  assert (K1 : 2 * (u * s) * L <= L * L * (u * u) + s * s) by (clear - K; nia).
  assert (K2 : L * L * (u * u) <= L * L * x) by (apply Z.mul_le_mono_nonneg_l; [nia|lia]).
  assert (K3 : L * (u * u) <= L * x) by (apply Z.mul_le_mono_nonneg_l; lia).
  assert (K4 : L * (s * s) <= L * (L * y)) by (apply Z.mul_le_mono_nonneg_l; lia).
  apply (Z.mul_le_mono_pos_l _ _ L); [lia|].
  replace (L * ((u + s) * (u + s))) with (L * (u * u) + 2 * (u * s) * L + L * (s * s)) by ring.
  replace (L * (Z.succ L * (x + y))) with (L * L * x + L * x + (L * (L * y) + L * y)) by (rewrite <- Z.add_1_r; ring).
  lia.
Qed.

Section Bwd.
  Context {N Bf G P : Type}.
  Variable fN : N -> Bf -> N.
  Variable fB : N -> Bf -> Bf.
  Variable intmax : Z.
  Variable fill : N.
  Variable C : Z.
  Variable max_steps : option Z.
  Variables (v0 : N) (b0 : Bf).
  Hypothesis HC : 1 <= C.
  Variable vjp : N -> Bf -> G -> P * G.
  Variable addP : P -> P -> P.
  Variable n : nat.
  Hypothesis Hn : Z.of_nat n < intmax.
  Hypothesis Hwo : buffers_write_once fN fB vjp v0 b0 n.
  Notation bufs := (snd (traj fN fB v0 b0 n)).
  Notation bwd_body := (bwd_body fN intmax fill C max_steps vjp addP bufs).
  Notation inv := (bwd_inv fN fB intmax fill C max_steps v0 b0 vjp addP n).
  Notation stack_ok := (stack_ok fN fB C max_steps v0 b0 n).
  Notation top := (top intmax fill).
  Notation calc_next := (calc_next intmax C).
  Notation all_saved := (all_saved C max_steps).

  Definition stk (index : Z) (res : list (Z * N)) : list Z := rev (map fst (firstn (Z.to_nat index) res)).
  Lemma stk_top index res : stack_ok index res -> 0 < index -> stk index res = top index res :: stk (index - 1) res.
  Proof.
    intros Hst Hi. destruct (top_spec fN fB intmax fill C max_steps v0 b0 HC n _ _ Hst Hi) as (v & Ht & _).
    unfold stk. replace (Z.to_nat index) with (S (Z.to_nat (index - 1))) by lia.
    rewrite (firstn_snoc _ _ _ Ht), map_app, rev_app_distr. reflexivity.
  Qed.
  Lemma stk_length index res : stack_ok index res -> Z.of_nat (length (stk index res)) = index.
  Proof. intros (A1 & A2 & _). unfold stk. rewrite rev_length, map_length, firstn_length. lia. Qed.
  Lemma stk_push index res x : stack_ok index res -> index < C ->
    stk (index + 1) (upd res (Z.to_nat index) x) = fst x :: stk index res.
  Proof.
    intros (A1 & A2 & _) Hlt. unfold stk. replace (Z.to_nat (index + 1)) with (S (Z.to_nat index)) by lia.
    rewrite (firstn_snoc _ _ x) by (apply nth_error_upd_same; lia). rewrite firstn_upd, map_app, rev_app_distr. reflexivity.
  Qed.

  (** [exact c a]: [a] evaluations remain. *)
  Definition exact (c : bcarry (N:=N) (G:=G) (P:=P)) (a : Z) : Prop :=
    (kept intmax fill C max_steps c /\ intmax <= b_next c /\
       exists a', segments C (stk (b_index c) (b_res c)) (b_sg c - 1) a' /\ a = b_sg c - 1 - b_sv c + a') \/
    (kept intmax fill C max_steps c /\ b_next c < intmax /\
       exists a', segments C (b_next c :: stk (b_index c) (b_res c)) (b_sg c) a' /\ a = b_next c - b_sv c + a') \/
    (popped intmax fill C max_steps c /\ segments C (stk (b_index c) (b_res c)) (b_sv c) a).

  (** At the most recent stored value. *)
  Lemma at_top sg index res a :
    stack_ok index res -> 0 < index -> top index res + 2 <= sg -> segments C (stk index res) sg a ->
    (intmax <= calc_next (top index res) sg index /\
       exists a', segments C (stk index res) (sg - 1) a' /\ a = sg - 1 - top index res + a') \/
    (calc_next (top index res) sg index <= sg - 2 /\ exists a', segments C (calc_next (top index res) sg index :: stk index res) sg a' /\
       a = calc_next (top index res) sg index - top index res + a').
  Proof.
    intros Hst Hi H2 HS. rewrite (stk_top _ _ Hst Hi) in *. set (t := top index res) in *.
    pose proof (stk_length _ _ Hst) as HL. rewrite (stk_top _ _ Hst Hi) in HL. fold t in HL.
    pose proof Hst as (A1 & A2 & _).
    inversion HS as [|s l e a1 b Hlt HR HB]; subst. rewrite HL in HR.
    inversion HR as [? E0|? ? a' L K HR'|? ? d a' b' L K D1 D2 X Y]; subst.
    - lia.
    - left. split; [unfold Ckpt_Model.calc_next; replace ((index =? C) || (t + 1 =? sg) || (t + 2 =? sg)) with true by lia; lia|].
      exists (a' + b). split; [|lia]. constructor; [lia| |exact HB]. rewrite HL. replace (sg - 1 - t) with (sg - t - 1) by lia. exact HR'.
    - right. assert (E : calc_next t sg index = t + d).
      { unfold Ckpt_Model.calc_next. replace ((index =? C) || (t + 1 =? sg) || (t + 2 =? sg)) with false by lia.
        destruct (Z.leb_spec (sg - t - 2) (C - index)); [rewrite D1 by lia; reflexivity|].
        f_equal. specialize (D2 ltac:(lia)). symmetry. apply (Z.div_unique _ _ _ (sg - t - 2 * d)); lia. }
      rewrite E.
      assert (Hd : 1 <= d <= sg - t - 2) by (destruct (Z.le_gt_cases (sg - t - 2) (C - index)); [rewrite D1 by lia; lia|lia]).
      split; [lia|]. exists (a' + (b' + b)). split; [|lia]. constructor; [lia| |].
      + cbn [length] in *. replace (C - Z.of_nat (S (S (length (stk (index - 1) res))))) with (C - index - 1) by lia.
        replace (sg - (t + d)) with (sg - t - d) by lia. exact X.
      + constructor; [lia| |exact HB]. rewrite HL. replace (t + d - t) with d by lia. exact Y.
  Qed.

  Lemma load_exact sg index res g0 p0 g p a :
    stack_ok index res -> 0 < index -> 0 < sg <= Z.of_nat n -> top index res < sg ->
    (all_saved = true -> top index res + 1 = sg) ->
    backprop fN fB vjp addP v0 b0 (Z.to_nat sg) g p = backprop fN fB vjp addP v0 b0 n g0 p0 ->
    segments C (stk index res) sg a ->
    let '(sv, val, index2) := load intmax fill C max_steps sg index res in
    exact {| b_sv := sv; b_sg := sg; b_next := calc_next sv sg index2; b_index := index2;
             b_val := val; b_g := g; b_p := p; b_res := res |} a.
  Proof.
    intros Hst Hi Hsg Htop Hall Hbp HS.
    pose proof (load_inv fN fB intmax fill C max_steps v0 b0 HC vjp addP n Hn sg index res g0 p0 g p Hst Hi Hsg Htop Hall Hbp) as HI.
    destruct (top_spec fN fB intmax fill C max_steps v0 b0 HC n _ _ Hst Hi) as (v & Hn1 & Hn2 & Hr & Hv).
    assert (Eld : load intmax fill C max_steps sg index res =
       (top index res, v, if (if all_saved then true else top index res + 1 =? sg) then index - 1 else index)).
    { unfold load. rewrite Hn2. replace (Z.max (index - 1) 0) with (index - 1) by lia. reflexivity. }
    rewrite Eld in *. destruct HI as (_ & _ & _ & _ & HK & _).
    destruct (Z.eq_dec (top index res + 1) sg) as [Heq|Hne].
    - right; right. replace (if all_saved then true else top index res + 1 =? sg) with true in * by (destruct all_saved; [reflexivity|symmetry; apply Z.eqb_eq; exact Heq]).
      clear HK. split.
      { pose proof Hst as (A1 & A2 & A3 & A4 & A5 & A6). unfold popped. cbn [b_sv b_sg b_next b_index b_val b_g b_p b_res].
        split; [auto|]. split; [|split; [|split]].
        - intros Hpos. assert (Hst2 : stack_ok (index - 1) res) by (eapply stack_ok_pop; eauto; lia).
          destruct (top_spec fN fB intmax fill C max_steps v0 b0 HC n _ _ Hst2 Hpos) as (v2 & Hn3 & _).
          eapply A4; [exact Hn3|exact Hn1|lia|lia].
        - intros H1. replace (index - 1) with 0 in Hn1 by lia. eapply A5; eauto.
        - apply (calc_next_none _ _ n). right; left; exact Heq.
        - intros Ha. specialize (A6 Ha _ _ _ Hn1 ltac:(lia)). lia. }
      cbn [b_index b_sv b_sg b_next b_res]. rewrite (stk_top _ _ Hst Hi) in HS.
      inversion HS as [|s l e a1 b Hlt HR HB]; subst. replace (top index res + 1 - top index res) with 1 in HR by lia.
      inversion HR; subst; [exact HB|lia|lia].
    - replace (if all_saved then true else top index res + 1 =? sg) with false in *
        by (destruct all_saved eqn:Ea; [exfalso; apply Hne; auto|symmetry; apply Z.eqb_neq; exact Hne]).
      destruct HK as [HK|HK]; [|destruct HK as (K1 & _); cbn in K1; lia].
      destruct (at_top sg index res a Hst Hi ltac:(lia) HS) as [(H1 & a' & H2 & H3)|(H1 & a' & H2 & H3)].
      + left. split; [exact HK|]. cbn [b_index b_sv b_sg b_next b_res]. split; [exact H1|]. eauto.
      + right; left. split; [exact HK|]. cbn [b_index b_sv b_sg b_next b_res]. split; [lia|]. eauto.
  Qed.

  Lemma exact_step g p c a : inv g p c -> exact c a ->
    (b_sv c + 1 <> b_sg c /\ 0 < b_sg (bwd_body c) /\ b_sg (bwd_body c) = b_sg c /\ exact (bwd_body c) (a - 1)) \/
    (b_sg (bwd_body c) = b_sg c - 1 /\ 0 < b_sg (bwd_body c) /\ exact (bwd_body c) a) \/
    (b_sg c = 1 /\ b_sg (bwd_body c) = 0 /\ a = 0).
  Proof.
    intros HI HE. pose proof HI as (Hsv & Hsg & Hval & Hst & Hkp & Hbp).
    destruct (Z.eq_dec (b_sv c + 1) (b_sg c)) as [Hs1|Hs1].
    - (* U-turn *)
      right. assert (HS : segments C (stk (b_index c) (b_res c)) (b_sg c - 1) a).
      { destruct HE as [(K & N1 & a' & S1 & E)|[(K & N1 & a' & S1 & E)|(Pp & S1)]].
        - replace a with a' by lia. exact S1.
        - exfalso. destruct K as (_ & _ & _ & _ & K4 & K5). specialize (K5 N1). lia.
        - replace (b_sg c - 1) with (b_sv c) by lia. exact S1. }
      assert (Hstk : b_index c = 0 /\ b_sg c = 1 \/
                     0 < b_index c /\ top (b_index c) (b_res c) < b_sg c - 1 /\
                     (all_saved = true -> top (b_index c) (b_res c) + 1 = b_sg c - 1)).
      { pose proof Hst as (A1 & A2 & A3 & A4 & A5 & A6).
        destruct Hkp as [(K0 & K1 & K2 & K3 & _)|(P1 & P2 & P3 & P4 & P5)].
        - right. split; [auto|]. split; [lia|]. congruence.
        - destruct (Z.eq_dec (b_index c) 0) as [Hz|Hz]; [left; specialize (P3 Hz); lia|right].
          split; [lia|]. split; [specialize (P2 ltac:(lia)); lia|].
          intros Ha. specialize (P5 Ha).
          destruct (top_spec fN fB intmax fill C max_steps v0 b0 HC n _ _ Hst ltac:(lia)) as (v & Hn1 & _).
          specialize (A6 Ha _ _ _ Hn1 ltac:(lia)). lia. }
      unfold Ckpt_Model.bwd_body.
      replace (if all_saved then true else b_sv c + 1 =? b_sg c) with true
        by (destruct all_saved; [auto|symmetry; apply Z.eqb_eq; auto]).
      rewrite (backprop_u_turn fN fB v0 b0 vjp addP n Hwo _ (b_sv c) (b_val c)) in Hbp by (auto; lia).
      destruct (vjp (b_val c) bufs (b_g c)) as [pu g2] eqn:Ev. cbn [fst snd] in Hbp.
      destruct Hstk as [[Hz Hz']|(Hi & Ht & Hta)].
      + right. destruct (load intmax fill C max_steps (b_sg c - 1) (b_index c) (b_res c)) as [[sv2 val2] ix2].
        split; [exact Hz'|]. split; [rewrite Hz'; destruct all_saved; [|unfold maybe_save]; reflexivity|].
        rewrite Hz, Hz' in HS. unfold stk in HS. cbn in HS. inversion HS. reflexivity.
      + left. destruct (top_spec fN fB intmax fill C max_steps v0 b0 HC n _ _ Hst Hi) as (tv & _ & Hn2 & Hrg & _).
        assert (Hsg1 : 0 < b_sg c - 1 <= Z.of_nat n) by lia.
        pose proof (load_exact (b_sg c - 1) (b_index c) (b_res c) g p g2 (addP (b_p c) pu) a Hst Hi Hsg1 Ht Hta Hbp HS) as HL.
        pose proof (load_inv fN fB intmax fill C max_steps v0 b0 HC vjp addP n Hn
           (b_sg c - 1) (b_index c) (b_res c) g p g2 (addP (b_p c) pu) Hst Hi Hsg1 Ht Hta Hbp) as HLI.
        destruct (load intmax fill C max_steps (b_sg c - 1) (b_index c) (b_res c)) as [[sv2 val2] ix2].
        set (c2 := {| b_sv := sv2 |}) in *.
        assert (Hne : b_sv c2 <> b_next c2).
        { destruct HLI as (L1 & L2 & _ & _ & [L3|L3] & _).
          - destruct L3 as (_ & _ & _ & _ & L & _). lia.
          - destruct L3 as (_ & _ & _ & L & _). lia. }
        assert (Ec : (if all_saved then c2 else maybe_save intmax C c2) = c2).
        { destruct all_saved; [auto|]. unfold maybe_save.
          destruct (Z.eqb_spec (b_sv c2) (b_next c2)) as [E|E]; [destruct (Hne E)|reflexivity]. }
        rewrite Ec. split; [reflexivity|]. split; [cbn; lia|exact HL].
    - (* an evaluation *)
      left. split; [exact Hs1|].
      destruct (bwd_step fN fB intmax fill C max_steps v0 b0 HC vjp addP n Hn Hwo g p c HI) as [(B1 & B2 & _)|[B1 _]].
      2:{ exfalso. destruct (body_fwd fN fB intmax fill C max_steps v0 b0 HC vjp addP n Hn g p c HI Hs1) as (_ & F & _). lia. }
      destruct (body_fwd fN fB intmax fill C max_steps v0 b0 HC vjp addP n Hn g p c HI Hs1) as (F1 & F2 & _).
      split; [exact B1|]. split; [exact F2|]. destruct B2 as (_ & _ & _ & HST & HKP & _).
      assert (HK' : kept intmax fill C max_steps c).
      { destruct HE as [(K & _)|[(K & _)|(Pp & _)]]; auto. destruct Pp as (Pp & _). congruence. }
      pose proof HK' as (K0 & K1 & K2 & K3 & K4 & K5).
      unfold Ckpt_Model.bwd_body in *. rewrite K0 in *.
      destruct (Z.eqb_spec (b_sv c + 1) (b_sg c)) as [E|_]; [congruence|].
      unfold maybe_save in *. cbn [b_sv b_sg b_next b_index b_val b_g b_p b_res] in *.
      destruct (Z.eqb_spec (b_sv c + 1) (b_next c)) as [E|E].
      + (* stored *)
        destruct HE as [(K & N1 & a' & S1 & Ea)|[(K & N1 & a' & S1 & Ea)|(Pp & S1)]]; [lia| |destruct Pp as (Pp & _); congruence].
        destruct (K5 N1) as [K6 K7]. pose proof Hst as (A1 & A2 & A3 & A4 & A5 & A6).
        unfold maybe_update in *. rewrite clampi_in in * by lia.
        set (x := (b_sv c + 1, fN (b_val c) bufs)) in *. set (res' := upd (b_res c) (Z.to_nat (b_index c)) x) in *.
        assert (Hst' : stack_ok (b_index c + 1) res') by exact HST.
        assert (Htp : top (b_index c + 1) res' = b_sv c + 1).
        { unfold Ckpt_Proofs2.top, res'. replace (b_index c + 1 - 1) with (b_index c) by lia.
          erewrite nth_error_nth; [|apply nth_error_upd_same; lia]. reflexivity. }
        assert (HS' : segments C (stk (b_index c + 1) res') (b_sg c) (a - 1)).
        { unfold res'. rewrite (stk_push _ _ _ Hst K7). cbn [fst x]. unfold x. cbn [fst]. rewrite E. replace (a - 1) with a' by lia. exact S1. }
        destruct (at_top (b_sg c) (b_index c + 1) res' (a - 1) Hst' ltac:(lia) ltac:(lia) HS') as [(H1 & a2 & H2 & H3)|(H1 & a2 & H2 & H3)]; rewrite Htp in *.
        * left. destruct HKP as [HKP|HKP]; [|destruct HKP as (Q & _); cbn in Q; lia]. split; [exact HKP|].
          cbn [b_sv b_sg b_next b_index b_val b_g b_p b_res]. split; [exact H1|]. exists a2. auto.
        * right; left. destruct HKP as [HKP|HKP]; [|destruct HKP as (Q & _); cbn in Q; lia]. split; [exact HKP|].
          cbn [b_sv b_sg b_next b_index b_val b_g b_p b_res]. split; [lia|]. exists a2. auto.
      + destruct HE as [(K & N1 & a' & S1 & Ea)|[(K & N1 & a' & S1 & Ea)|(Pp & S1)]]; [| |destruct Pp as (Pp & _); congruence].
        * left. unfold maybe_update in *. destruct HKP as [HKP|HKP].
          -- split; [exact HKP|]. cbn [b_sv b_sg b_next b_index b_val b_g b_p b_res]. split; [exact N1|]. exists a'. split; [exact S1|lia].
          -- split; [|cbn [b_sv b_sg b_next b_index b_val b_g b_p b_res]; split; [exact N1|]; exists a'; split; [exact S1|lia]].
             unfold kept. cbn [b_sv b_sg b_next b_index b_val b_g b_p b_res]. repeat split; auto; try lia.
        * right; left. unfold maybe_update in *. split; [|cbn [b_sv b_sg b_next b_index b_val b_g b_p b_res]; split; [exact N1|]; exists a'; split; [exact S1|lia]].
          unfold kept. cbn [b_sv b_sg b_next b_index b_val b_g b_p b_res]. specialize (K5 N1). repeat split; auto; try lia.
  Qed.

  Lemma exact_count g p : forall m c a, inv g p c -> exact c a -> Z.of_nat m = b_sg c + a -> forall fuel,
    while fuel bwd_cond bwd_body c <> None <-> (m < fuel)%nat.
  Proof.
    induction m as [|m IH]; intros c a HI HE Hm fuel.
    { exfalso. pose proof HI as (I1 & I2 & _). assert (0 <= a); [|lia].
      destruct HE as [(K & N1 & a' & S1 & E)|[(K & N1 & a' & S1 & E)|(Pp & S1)]].
      - apply segments_pos in S1. lia.
      - apply segments_pos in S1. destruct K as (_ & _ & _ & _ & K4 & _). lia.
      - apply segments_pos in S1. lia. }
    destruct fuel as [|fuel]; [cbn; split; [congruence|lia]|]. cbn [while].
    assert (Hsg : bwd_cond c = true) by (destruct HI as (I1 & _); unfold bwd_cond; lia). rewrite Hsg.
    destruct (exact_step g p c a HI HE) as [(E1 & E2 & E3 & E4)|[(E1 & E2 & E3)|(E1 & E2 & E3)]].
    - destruct (bwd_step fN fB intmax fill C max_steps v0 b0 HC vjp addP n Hn Hwo g p c HI) as [(_ & B2 & _)|[B1 _]]; [|lia].
      rewrite (IH _ _ B2 E4 ltac:(lia) fuel). lia.
    - destruct (bwd_step fN fB intmax fill C max_steps v0 b0 HC vjp addP n Hn Hwo g p c HI) as [(_ & B2 & _)|[B1 _]]; [|lia].
      rewrite (IH _ _ B2 E3 ltac:(lia) fuel). lia.
    - destruct fuel as [|fuel]; [cbn; split; [congruence|lia]|].
      cbn [while]. unfold bwd_cond at 1. rewrite E2. cbn [Z.ltb Z.compare]. split; [lia|discriminate].
  Qed.

  Lemma segments_total index res e : stack_ok index res -> 0 < index -> top index res < e -> exists a, segments C (stk index res) e a.
  Proof.
    intros Hst Hi. remember (Z.to_nat index) as m eqn:Em. revert index e Hst Hi Em. induction m as [|m IH]; intros index e Hst Hi Em He; [lia|].
    pose proof Hst as (A1 & A2 & A3 & A4 & A5 & A6).
    rewrite (stk_top _ _ Hst Hi). pose proof (stk_length _ _ Hst) as HL. rewrite (stk_top _ _ Hst Hi) in HL.
    destruct (reversal_total (Z.to_nat (e - top index res)) (e - top index res) (C - index)) as (a & Ha & _); [lia|lia|].
    assert (HB : exists b, segments C (stk (index - 1) res) (top index res) b).
    { destruct (top_spec fN fB intmax fill C max_steps v0 b0 HC n _ _ Hst Hi) as (v & Ht & _).
      destruct (Z.eq_dec index 1) as [->|H1].
      - replace (1 - 1) with 0 in * by lia. specialize (A5 _ _ Ht Hi). rewrite A5. exists 0. constructor.
      - assert (Hst2 : stack_ok (index - 1) res) by (eapply stack_ok_pop; eauto; lia).
        destruct (top_spec fN fB intmax fill C max_steps v0 b0 HC n _ _ Hst2 ltac:(lia)) as (v2 & Ht2 & _).
        apply IH; [exact Hst2|lia|lia|]. eapply A4; [exact Ht2|exact Ht|lia|lia]. }
    destruct HB as (b & HB). exists (a + b). constructor; [exact He| |exact HB]. rewrite HL. exact Ha.
  Qed.
End Bwd.
