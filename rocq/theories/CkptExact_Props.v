(** C109: how often the backward pass evaluates a step, exactly, for any number of steps. *)
From Verif Require Import Base Ckpt_Model Ckpt_Spec Ckpt_Proofs Ckpt_Proofs2 Ckpt_Proofs3
  CkptCost_Spec CkptCost_Proofs CkptCost_Proofs2 CkptExact_Spec CkptExact_Proofs CkptExact_Proofs2.
Local Open Scope Z_scope.

(** Beside its [n] U-turns the backward loop makes exactly the [a] evaluations given by [segments] from the steps stored by
    the forward pass. *)
Theorem C109_exact :
  forall {N Bf G P} (fN : N -> Bf -> N) fB cond vjp (addP : P -> P -> P) intmax fill C max_steps v0 b0 n
         fuel (g : G) p,
    1 <= C -> within C max_steps n -> Z.of_nat n < intmax ->
    stops_at fN fB cond v0 b0 n ->
    buffers_write_once fN fB vjp v0 b0 n ->
    (n < fuel)%nat ->
    exists num_steps v b res a,
      ckpt_fwd fN fB cond intmax fill C max_steps fuel v0 b0 = Some (num_steps, v, b, res) /\
      segments C (rev (map fst (firstn (Z.to_nat (Z.min (Z.of_nat n) C)) res))) (Z.of_nat n) a /\
      forall fuel', ckpt_bwd fN intmax fill C max_steps vjp addP fuel' num_steps b g p res <> None <->
                    (n + Z.to_nat a < fuel')%nat.
Proof.
  intros N Bf G P fN fB cond vjp addP intmax fill C max_steps v0 b0 n fuel g p HC Hin Him Hs Hwo Hf.
  destruct (ckpt_fwd_correct fN fB intmax fill C max_steps v0 b0 HC cond n fuel Hs Hin (Z.lt_le_incl _ _ Him) Hf)
    as (res & E1 & E2 & E3 & E4).
  destruct (Nat.eq_dec n 0) as [Hz|Hz].
  { eexists _, _, _, res, 0. split; [exact E1|]. subst n. rewrite Z.min_l by (cbn; lia). split; [constructor|].
    intros fuel'. unfold ckpt_bwd, bwd_init. destruct (load _ _ _ _ _ _ _) as [[sv val] ix].
    destruct fuel'; cbn; split; intros; try lia; try congruence; try discriminate. }
  pose proof (good_stack fN fB C max_steps v0 b0 HC n res E2 E3 E4) as Hst.
  pose proof (bwd_init_inv fN fB intmax fill C max_steps v0 b0 HC vjp addP n Him Hin res g p E2 E3 E4 Hz) as HI.
  set (ix0 := Z.min (Z.of_nat n) C) in *.
  assert (Hi : 0 < ix0) by (unfold ix0; lia).
  destruct (top_spec fN fB intmax fill C max_steps v0 b0 HC n _ _ Hst Hi) as (tv & Ht & Hn2 & Hr & _).
  destruct (segments_total fN fB intmax fill C max_steps v0 b0 HC n ix0 res (Z.of_nat n) Hst Hi ltac:(lia)) as (a & HS).
  pose proof (segments_pos _ _ _ _ HS) as [_ Ha0].
  exists (Z.of_nat n), (fst (traj fN fB v0 b0 n)), (snd (traj fN fB v0 b0 n)), res, a.
  split; [exact E1|]. split; [exact HS|]. intros fuel'. unfold ckpt_bwd.
  set (c0 := bwd_init intmax fill C max_steps (Z.of_nat n) g p res) in *.
  assert (HE : exact intmax fill C max_steps c0 a /\ b_sg c0 = Z.of_nat n).
  { assert (Hall : all_saved C max_steps = true -> top intmax fill ix0 res + 1 = Z.of_nat n).
    { intros Ha. pose proof Hst as (_ & _ & _ & _ & _ & A6). specialize (A6 Ha _ _ _ Ht ltac:(lia)).
      unfold all_saved in Ha. destruct max_steps as [m|]; [|discriminate]. apply Z.eqb_eq in Ha. cbn in Hin. lia. }
    pose proof (load_exact fN fB intmax fill C max_steps v0 b0 HC vjp addP n Him (Z.of_nat n) ix0 res g p g p a Hst Hi ltac:(lia) ltac:(lia) Hall) as HX.
    rewrite Nat2Z.id in HX. specialize (HX eq_refl HS). unfold c0, bwd_init. fold ix0.
    destruct (load intmax fill C max_steps (Z.of_nat n) ix0 res) as [[sv val] ix]. split; [exact HX|reflexivity]. }
  destruct HE as [HE Esg].
  rewrite <- (exact_count fN fB intmax fill C max_steps v0 b0 HC vjp addP n Him Hwo g p (n + Z.to_nat a) c0 a HI HE ltac:(lia) fuel').
  destruct (while _ _ _ _); split; intros; congruence || discriminate.
Qed.
Print Assumptions C109_exact.

(** The number is determined by the stored steps, and there is one for every length and number of free slots. *)
Theorem C109_function : (forall C stored n a b, segments C stored n a -> segments C stored n b -> a = b) /\
  (forall k l a b, reversal k l a -> reversal k l b -> a = b) /\ (forall k l, 0 <= k -> 1 <= l -> exists a, reversal k l a).
Proof.
  split; [|split].
  - intros C stored n a b Ha Hb. exact (segments_fun _ _ _ _ Ha _ Hb).
  - intros k l a b Ha Hb. exact (reversal_fun _ _ _ Ha _ Hb).
  - intros k l Hk Hl. destruct (reversal_total (Z.to_nat l) l k) as (a & Ha & _); [lia|exact Hk|]. exists a. exact Ha.
Qed.
Print Assumptions C109_function.

(** Bounds for one segment: at least one evaluation for all but the first step, and just these if they fit into the free slots;
    logarithmically many each with logarithmically many slots; and in general. *)
Theorem C109_linear : forall k l a, reversal k l a -> l - 1 <= a /\ (l - 2 <= k -> a = l - 1).
Proof. intros k l a H. split; [apply reversal_pos in H; lia|apply (reversal_linear _ _ _ H)]. Qed.
Print Assumptions C109_linear.
Theorem C109_logarithmic : forall k l a, reversal k l a -> 0 <= k -> l <= 2 ^ (k + 1) -> 2 * a <= l * Z.log2_up l.
Proof. exact reversal_log. Qed.
Print Assumptions C109_logarithmic.
Theorem C109_bound : forall k l a q, reversal k l a -> 0 <= k -> l <= q * 2 ^ k -> 2 * a <= l * (k + q).
Proof. intros k l a q H Hk Hq. exact (reversal_bound _ _ _ H Hk q Hq). Qed.
Print Assumptions C109_bound.
(** For all segments together: at most half of the pairs of steps. *)
Theorem C109_quadratic : forall C stored n a, segments C stored n a -> Z.of_nat (length stored) <= C -> 2 * a <= n * (n - 1).
Proof.
  assert (HQ : forall k l a, reversal k l a -> 2 * a <= l * (l - 1)).
  { induction 1 as [k|k l a Hl Hk H IH|k l d a b Hl Hk D1 D2 Ha IHa Hb IHb]; [lia|nia|].
    apply reversal_pos in Ha as [? _]. apply reversal_pos in Hb as [? _]. nia. }
  induction 1 as [|s l e a b Hs Ha Hb IH]; intros HL; [lia|]. cbn [length] in HL. specialize (IH ltac:(lia)). apply HQ in Ha.
  apply segments_pos in Hb as [? _]. nia.
Qed.
Print Assumptions C109_quadratic.

(** Non-vacuity: 20 steps with 3 checkpoints leave steps 0, 15 and 19 stored; 20 + 34 iterations are needed. *)
Lemma ex_0_2 k : reversal k 2 1.
Proof. apply (r_again k 2 0); [lia|auto|constructor]. Qed.
Lemma ex_0_4 : reversal 0 4 6.
Proof. apply (r_again 0 4 3); [lia|auto|]. apply (r_again 0 3 1); [lia|auto|apply ex_0_2]. Qed.
Lemma ex_1_4 : reversal 1 4 4.
Proof. apply (r_split 1 4 2 1 1); try lia; apply ex_0_2. Qed.
Lemma ex_2_3 : reversal 2 3 2.
Proof. apply (r_split 2 3 1 1 0); try lia; [apply ex_0_2|constructor]. Qed.
Lemma ex_1_8 : reversal 1 8 14.
Proof. apply (r_split 1 8 4 6 4); try lia; [apply ex_0_4|apply ex_1_4]. Qed.
Lemma ex_2_7 : reversal 2 7 9.
Proof. apply (r_split 2 7 3 4 2); try lia; [apply ex_1_4|apply ex_2_3]. Qed.
Lemma ex_2_15 : reversal 2 15 30.
Proof. apply (r_split 2 15 7 14 9); try lia; [apply ex_1_8|apply ex_2_7]. Qed.
Example C109_ex : segments 3 [19; 15; 0] 20 34 /\
  match ckpt_fwd (fun x (_ : unit) => x + 1) (fun _ b => b) (fun x _ => x <? 20) 10000 0 3 None 100 0 tt with
  | Some (n, v, b, res) => map fst res = [0; 15; 19] /\
      map (fun fuel => ckpt_bwd (fun x (_ : unit) => x + 1) 10000 0 3 None (fun x _ g => (x, g)) Z.add fuel n b 1 0 res) [54%nat; 55%nat]
      = [None; Some (1, 190)]
  | None => False
  end.
Proof.
  split; [|vm_compute; split; reflexivity].
  apply (s_cons 3 19 [15; 0] 20 0 34); [lia|apply r_one|].
  apply (s_cons 3 15 [0] 19 4 30); [lia|apply ex_1_4|].
  apply (s_cons 3 0 [] 15 30 0); [lia|apply ex_2_15|constructor].
Qed.

(** With a fixed number of checkpoints the cost is quadratic in the number of steps. *)
Theorem C109_at_least : forall C stored n a, segments C stored n a -> Z.of_nat (length stored) <= C -> 1 <= C ->
  n * n <= C * (3 ^ (C - 1) * (2 * a + n)).
Proof.
  intros C stored n a H HL HC. eapply Z.le_trans; [apply (segments_square _ _ _ _ H HL)|].
  apply Z.mul_le_mono_nonneg_r; [|exact HL]. apply segments_pos in H. apply Z.mul_nonneg_nonneg; [apply Z.pow_nonneg|]; lia.
Qed.
Print Assumptions C109_at_least.

(** The documentation says that the cost has "similar asymptotic complexity" to the offline version. For a fixed number of
    checkpoints it has not: with 2 of them, no multiple of the cost of the offline version is enough. *)
Theorem C109_asymptotic_refuted :
  ~ (exists K, forall (fN : Z -> unit -> Z) fB cond (vjp : Z -> unit -> Z -> Z * Z) addP intmax fill max_steps v0 b0 n fuel g p
            stored a,
       within 2 max_steps n -> Z.of_nat n < intmax ->
       stops_at fN fB cond v0 b0 n ->
       buffers_write_once fN fB vjp v0 b0 n ->
       (n < fuel)%nat ->
       (length stored <= 2)%nat ->
       reverses 2 (after_forward n stored) a ->
       exists num_steps v b res,
         ckpt_fwd fN fB cond intmax fill 2 max_steps fuel v0 b0 = Some (num_steps, v, b, res) /\
         ckpt_bwd fN intmax fill 2 max_steps vjp addP (K * (n + a + 1)) num_steps b g p res <> None).
Proof.
  intros (K & H).
  set (m := (36 * (K + 1))%nat). destruct (square_root_schedule m) as (a & Ha & Hr).
  assert (Hst : stops_at (fun x (_ : unit) => x + 1) (fun _ b => b) (fun x _ => x <? Z.of_nat (m * m)) 0 tt (m * m)).
  { assert (Ht : forall k, traj (fun x (_ : unit) => x + 1) (fun _ b => b) 0 tt k = (Z.of_nat k, tt)).
    { induction k as [|k IHk]; [reflexivity|]. cbn [traj]. rewrite IHk. cbn [fst snd]. f_equal. lia. }
    split; [intros k Hk|]; rewrite Ht; cbn [fst snd]; [apply Z.ltb_lt|apply Z.ltb_ge]; lia. }
  assert (Hwo : buffers_write_once (fun x (_ : unit) => x + 1) (fun _ b => b) (fun x _ (g : Z) => (x, g)) 0 tt (m * m))
    by (intros k _; split; reflexivity).
  destruct (H (fun x _ => x + 1) (fun _ b => b) (fun x _ => x <? Z.of_nat (m * m)) (fun x _ g => (x, g)) Z.add
              (Z.of_nat (m * m) + 1) 0 None 0 tt (m * m)%nat (S (m * m)) 1 0 [0%nat] a) as (num & v & b & res & E1 & E2);
    [exact I|lia|exact Hst|exact Hwo|lia|cbn; lia|exact Hr|].
  destruct (C109_exact (fun x _ => x + 1) (fun _ b => b) (fun x _ => x <? Z.of_nat (m * m)) (fun x _ g => (x, g)) Z.add
              (Z.of_nat (m * m) + 1) 0 2 None 0 tt (m * m)%nat (S (m * m)) 1 0) as (num' & v' & b' & res' & a' & F1 & F2 & F3);
    [lia|exact I|lia|exact Hst|exact Hwo|lia|].
  rewrite F1 in E1. assert (num' = num /\ b' = b /\ res' = res) as (-> & -> & ->) by (split; [|split]; congruence).
  apply F3 in E2. apply C109_at_least in F2 as F4; [|rewrite rev_length, map_length, firstn_length, Nat2Z.inj_min, Z2Nat.id by lia; lia|lia].
  apply segments_pos in F2 as [_ F5].
  change (3 ^ (2 - 1)) with 3 in F4.
  pose proof (proj1 (Nat2Z.inj_lt _ _) E2) as E3.
  rewrite Nat2Z.inj_add, Z2Nat.id, (Nat2Z.inj_mul K), !Nat2Z.inj_add in E3 by exact F5. change (Z.of_nat 1) with 1 in E3.
  pose proof (proj1 (Nat2Z.inj_le _ _) Ha) as Ha'. rewrite !Nat2Z.inj_mul in Ha'.
  rewrite Nat2Z.inj_mul in *. assert (Em : Z.of_nat m = 36 * (Z.of_nat K + 1)) by (unfold m; lia).
  set (M := Z.of_nat m) in *. set (k := Z.of_nat K) in *. assert (0 <= k) by (unfold k; lia). clearbody M k.
  clear - F4 E3 Ha' Em H0.
  set (A := Z.of_nat a) in *. clearbody A.
  set (X := M * M + M * M * M + 1). assert (HX : 0 <= X) by (unfold X; apply Z.add_nonneg_nonneg; [|lia]; nia).
  assert (A1 : k * (M * M + A + 1) <= k * X) by (apply Z.mul_le_mono_nonneg_l; unfold X; lia).
  assert (A2 : 36 * (k * X) <= M * X) by (replace (36 * (k * X)) with (36 * k * X) by ring; apply Z.mul_le_mono_nonneg_r; lia).
  assert (A3 : M * M < M * M * M) by nia.
  assert (A4 : M * X < M * (M * M * M + M * M * M)) by (apply Z.mul_lt_mono_pos_l; [lia|unfold X; lia]).
  assert (A5 : 0 < M * (M * M * M)) by (apply Z.mul_pos_pos; [lia|nia]).
  assert (A6 : 0 <= M * M) by apply Z.square_nonneg.
  replace (M * M * (M * M)) with (M * (M * M * M)) in F4 by ring.
  replace (M * (M * M * M + M * M * M)) with (2 * (M * (M * M * M))) in A4 by ring.
  lia.
Qed.
Print Assumptions C109_asymptotic_refuted.
