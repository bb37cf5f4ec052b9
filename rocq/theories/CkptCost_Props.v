(** Property C93: how much the backward pass of a checkpointed while loop recomputes. *)
From Verif Require Import Base Ckpt_Model Ckpt_Spec Ckpt_Proofs Ckpt_Proofs2 Ckpt_Proofs3
  CkptCost_Spec CkptCost_Proofs CkptCost_Proofs2.
Local Open Scope Z_scope.

(** Whatever is stored, and whatever is stored later, reversing [n] steps with room for [C]
    values needs at least [n - C] evaluations of a step. *)
Theorem C93_lower_bound :
  forall C n stored a,
    (length stored <= C)%nat -> reverses C (after_forward n stored) a -> (n - C <= a)%nat.
Proof.
  intros C n stored a Hl Hr. apply reverses_lower in Hr.
  pose proof (missing_after n stored). lia.
Qed.
Print Assumptions C93_lower_bound.

(** The iterations of the backward loop are such a schedule: one iteration for each of the
    [n] U-turns and one for each evaluation of a step. The values stored by the forward
    pass are at most [C]. This holds for any number of steps. *)
Theorem C93_is_schedule :
  forall {N Bf G P} (fN : N -> Bf -> N) fB cond vjp (addP : P -> P -> P) intmax fill C max_steps v0 b0 n
         fuel (g : G) p,
    1 <= C -> within C max_steps n -> Z.of_nat n < intmax ->
    stops_at fN fB cond v0 b0 n ->
    buffers_write_once fN fB vjp v0 b0 n ->
    (n < fuel)%nat ->
    exists num_steps v b res stored a,
      ckpt_fwd fN fB cond intmax fill C max_steps fuel v0 b0 = Some (num_steps, v, b, res) /\
      (length stored <= Z.to_nat C)%nat /\
      reverses (Z.to_nat C) (after_forward n stored) a /\
      forall fuel', ckpt_bwd fN intmax fill C max_steps vjp addP fuel' num_steps b g p res <> None <->
                    (n + a < fuel')%nat.
Proof.
  intros N Bf G P fN fB cond vjp addP intmax fill C max_steps v0 b0 n fuel g p HC Hin Him Hs Hwo Hf.
  destruct (ckpt_fwd_correct fN fB intmax fill C max_steps v0 b0 HC cond n fuel Hs Hin (Z.lt_le_incl _ _ Him) Hf)
    as (res & E1 & E2 & E3 & E4).
  destruct (Nat.eq_dec n 0) as [Hz|Hz].
  { eexists _, _, _, res, [], O. split; [exact E1|]. split; [cbn; lia|]. split; [apply rev_done; exact Hz|].
    intros fuel'. unfold ckpt_bwd, bwd_init. rewrite Hz. destruct (load _ _ _ _ _ _ _) as [[sv val] ix].
    destruct fuel'; cbn; split; intros; try lia; try congruence; try discriminate. }
  pose proof (good_stack fN fB C max_steps v0 b0 HC n res E2 E3 E4) as Hst.
  pose proof (bwd_init_inv fN fB intmax fill C max_steps v0 b0 HC vjp addP n Him Hin res g p E2 E3 E4 Hz) as HI.
  set (c0 := bwd_init intmax fill C max_steps (Z.of_nat n) g p res) in *.
  destruct (schedule fN fB intmax fill C max_steps v0 b0 HC vjp addP n Him Hwo g p
              (Z.to_nat (measure n c0)) c0 HI) as (a & Ha & Hw).
  { rewrite Z2Nat.id; [lia|]. destruct HI as (I1 & I2 & _). unfold measure. nia. }
  set (ix0 := Z.min (Z.of_nat n) C) in *.
  exists (Z.of_nat n), (fst (traj fN fB v0 b0 n)), (snd (traj fN fB v0 b0 n)), res, (stored_of ix0 res), a.
  split; [exact E1|]. split; [rewrite (stored_length fN fB C max_steps v0 b0 HC n _ _ Hst); unfold ix0; lia|].
  assert (Hi : 0 < ix0) by (unfold ix0; lia).
  pose proof (stored_top fN fB intmax fill C max_steps v0 b0 HC n _ _ Hst Hi) as Etop.
  destruct (top_spec fN fB intmax fill C max_steps v0 b0 HC n _ _ Hst Hi) as (tv & _ & Hn2 & _).
  assert (Esg : b_sg c0 = Z.of_nat n).
  { unfold c0, bwd_init. destruct (load _ _ _ _ _ _ _) as [[? ?] ?]. reflexivity. }
  split.
  - unfold after_forward.
    eapply rev_other; [apply (do_load _ _ (Z.to_nat (top intmax fill ix0 res))); rewrite Etop; left; reflexivity|discriminate|].
    unfold mach in Ha. rewrite Esg, Nat2Z.id in Ha.
    unfold c0, bwd_init, load in Ha. fold ix0 in Ha. rewrite Hn2 in Ha.
    cbn [b_sv b_index b_res] in Ha.
    replace (Z.max (ix0 - 1) 0) with (ix0 - 1) in Ha by lia.
    destruct (if all_saved C max_steps then true else _); [|exact Ha].
    rewrite Etop. eapply rev_other; [apply (do_drop _ _ [])|discriminate|]. exact Ha.
  - intros fuel'. unfold ckpt_bwd. fold c0. rewrite Esg, Nat2Z.id in Hw. rewrite <- Hw.
    destruct (while _ _ _ _); split; intros; congruence || discriminate.
Qed.
Print Assumptions C93_is_schedule.

(** If the loop makes fewer than [(C + 1) (C + 2) / 2] steps then the backward loop makes
    exactly [n - C] evaluations (none when [n <= C]) beside its [n] U-turns: every step that
    was not stored is recomputed once, the minimum by [C93_lower_bound]. *)
Theorem C93_count :
  forall {N Bf G P} (fN : N -> Bf -> N) fB cond vjp (addP : P -> P -> P) intmax fill C max_steps v0 b0 n
         fuel (g : G) p,
    1 <= C -> within C max_steps n -> Z.of_nat n < intmax ->
    stops_at fN fB cond v0 b0 n ->
    buffers_write_once fN fB vjp v0 b0 n ->
    (n < fuel)%nat ->
    2 * Z.of_nat n < (C + 1) * (C + 2) ->
    exists num_steps v b res,
      ckpt_fwd fN fB cond intmax fill C max_steps fuel v0 b0 = Some (num_steps, v, b, res) /\
      forall fuel', ckpt_bwd fN intmax fill C max_steps vjp addP fuel' num_steps b g p res <> None <->
                    (n + (n - Z.to_nat C) < fuel')%nat.
Proof.
  intros N Bf G P fN fB cond vjp addP intmax fill C max_steps v0 b0 n fuel g p HC Hin Him Hs Hwo Hf Hu.
  assert (Hu' : Z.of_nat n <= u2_minus_1 C).
  { unfold u2_minus_1.
    assert (Hev : exists q, (C + 1) * (C + 2) = 2 * q).
    { destruct (Z.Even_or_Odd C) as [[q ->]|[q ->]]; [exists ((2*q+1)*(q+1))|exists ((q+1)*(2*q+3))]; lia. }
    destruct Hev as [q Hq]. rewrite Hq, Z.mul_comm, Z.div_mul by lia. lia. }
  destruct (bwd_count fN fB cond intmax fill C max_steps v0 b0 HC vjp addP n Him Hin Hwo Hs Hu' fuel g p Hf)
    as (res & E1 & E2).
  eexists _, _, _, res. split; [exact E1|exact E2].
Qed.
Print Assumptions C93_count.

(** In particular with the default number of checkpoints, which is chosen from [max_steps]. *)
Theorem C93_default :
  forall {N Bf G P} (fN : N -> Bf -> N) fB cond vjp (addP : P -> P -> P) intmax fill C m v0 b0 n
         fuel (g : G) p,
    1 <= m -> choose_checkpoints None (Some m) = Ok C ->
    Z.of_nat n <= m -> Z.of_nat n < intmax ->
    stops_at fN fB cond v0 b0 n ->
    buffers_write_once fN fB vjp v0 b0 n ->
    (n < fuel)%nat ->
    exists num_steps v b res,
      ckpt_fwd fN fB cond intmax fill C (Some m) fuel v0 b0 = Some (num_steps, v, b, res) /\
      forall fuel', ckpt_bwd fN intmax fill C (Some m) vjp addP fuel' num_steps b g p res <> None <->
                    (n + (n - Z.to_nat C) < fuel')%nat.
Proof.
  intros N Bf G P fN fB cond vjp addP intmax fill C m v0 b0 n fuel g p Hm Hc Hnm Him Hs Hwo Hf.
  pose proof (default_range m Hm) as [D1 D2].
  assert (EC : C = default_checkpoints m).
  { unfold choose_checkpoints in Hc.
    destruct ((m =? 1) || _); cbn in Hc; [|discriminate].
    destruct (default_checkpoints m <? 1); inversion Hc. lia. }
  subst C. apply (C93_count fN fB cond vjp addP intmax fill _ (Some m)); auto.
  - split; lia.
  - pose proof (proj2 (default_le m (default_checkpoints m) Hm ltac:(lia)) (Z.le_refl _)). lia.
Qed.
Print Assumptions C93_default.

(** Non-vacuity: 9 steps with 3 checkpoints need 9 + 6 iterations. *)
Example C93_ex1 :
  match ckpt_fwd (fun x (_ : unit) => x + 1) (fun _ b => b) (fun x _ => x <? 9) 10000 0 3 None 100 0 tt with
  | Some (n, v, b, res) =>
      map (fun fuel => match ckpt_bwd (fun x (_ : unit) => x + 1) 10000 0 3 None (fun x _ g => (x, g)) Z.add fuel n b 1 0 res
                       with Some r => Some r | None => None end) [15%nat; 16%nat]
  | None => []
  end = [None; Some (1, 36)].
Proof. reflexivity. Qed.

(** The documentation says "less than or equal to". With [(C + 1) (C + 2) / 2] steps the
    backward pass makes more evaluations than an offline schedule: 6 steps and 2
    checkpoints take 6 evaluations, but storing steps 0 and 4 would take 5. *)
Lemma five_evaluations : reverses 2 (after_forward 6 [4; 0]%nat) 5.
Proof.
  unfold after_forward.
  eapply (rev_other _ _ (Load 4)); [apply do_load; cbn; auto|discriminate|].
  eapply rev_advance; [constructor|].
  eapply (rev_other _ _ Turn); [apply do_turn|discriminate|].
  eapply (rev_other _ _ (Load 4)); [apply do_load; cbn; auto|discriminate|].
  eapply (rev_other _ _ Turn); [apply do_turn|discriminate|].
  eapply (rev_other _ _ (Drop 4)); [apply (do_drop _ _ [])|discriminate|].
  eapply (rev_other _ _ (Load 0)); [apply do_load; cbn; auto|discriminate|].
  eapply rev_advance; [constructor|]. eapply rev_advance; [constructor|].
  eapply (rev_other _ _ Store); [apply do_store; cbn; lia|discriminate|].
  eapply rev_advance; [constructor|].
  eapply (rev_other _ _ Turn); [apply do_turn|discriminate|].
  eapply (rev_other _ _ (Load 2)); [apply do_load; cbn; auto|discriminate|].
  eapply (rev_other _ _ Turn); [apply do_turn|discriminate|].
  eapply (rev_other _ _ (Load 0)); [apply do_load; cbn; auto|discriminate|].
  eapply rev_advance; [constructor|].
  eapply (rev_other _ _ Turn); [apply do_turn|discriminate|].
  eapply (rev_other _ _ (Load 0)); [apply do_load; cbn; auto|discriminate|].
  eapply (rev_other _ _ Turn); [apply do_turn|discriminate|].
  apply rev_done. reflexivity.
Qed.

Theorem C93_equality_refuted :
  ~ (forall (fN : Z -> unit -> Z) fB cond (vjp : Z -> unit -> Z -> Z * Z) addP intmax fill C max_steps v0 b0 n fuel g p
            stored a,
       1 <= C -> within C max_steps n -> Z.of_nat n < intmax ->
       stops_at fN fB cond v0 b0 n ->
       buffers_write_once fN fB vjp v0 b0 n ->
       (n < fuel)%nat ->
       2 * Z.of_nat n <= (C + 1) * (C + 2) ->
       (length stored <= Z.to_nat C)%nat ->
       reverses (Z.to_nat C) (after_forward n stored) a ->
       exists num_steps v b res,
         ckpt_fwd fN fB cond intmax fill C max_steps fuel v0 b0 = Some (num_steps, v, b, res) /\
         ckpt_bwd fN intmax fill C max_steps vjp addP (n + a + 1) num_steps b g p res <> None).
Proof.
  intros H.
  specialize (H (fun x _ => x + 1) (fun _ b => b) (fun x _ => x <? 6) (fun x _ g => (x, g)) Z.add
                100 0 2 None 0 tt 6%nat 50%nat 1 0 [4; 0]%nat 5%nat).
  destruct H as (num & v & b & res & E1 & E2).
  - lia.
  - exact I.
  - cbn. lia.
  - split; [|reflexivity]. intros k Hk. do 6 (destruct k; [reflexivity|]). lia.
  - intros k _. split; reflexivity.
  - lia.
  - cbn. lia.
  - cbn. lia.
  - exact five_evaluations.
  - vm_compute in E1. inversion E1; subst num v b res. apply E2. vm_compute. reflexivity.
Qed.
Print Assumptions C93_equality_refuted.
