(** C110: bounded loops evaluate each step once; differentiating them evaluates each step once per level, with logarithmic memory. *)
From Verif Require Import Base Loop_Model Loop_Spec Loop_Proofs BoundedCost_Model BoundedCost_Spec BoundedCost_Proofs.
Local Open Scope nat_scope.

Lemma scan_repeat {S} (step : S -> list (event S) * S) g : (forall s, snd (step s) = g s) -> forall n s, snd (scan n step s) = repeat_fn n g s.
Proof.
  intros H n. induction n as [|n IH]; intros s; [reflexivity|]. cbn [scan repeat_fn]. rewrite <- H. destruct (step s) as [e s']. cbn [snd].
  rewrite <- IH. destruct (scan n step s'). reflexivity.
Qed.
(** Recording evaluations changes no result. *)
Theorem C110_result {S} (c : S -> bool) f base : forall depth s, snd (run c f base depth s) = bounded_rec c f base depth s.
Proof.
  intros depth. induction depth as [|d IH]; intros s; [reflexivity|]. cbn [run bounded_rec]. apply scan_repeat. intros x.
  destruct (c x); [|reflexivity]. rewrite <- IH. destruct (run c f base d x). reflexivity.
Qed.
Print Assumptions C110_result.

Lemma cdiv_le n b : 0 < b -> cdiv n b <= n / b + 1.
Proof. intros H. unfold cdiv. transitivity ((n + 1 * b) / b); [apply Nat.div_le_mono; lia|]. rewrite Nat.div_add by lia. lia. Qed.
Lemma levels_le base d n : 1 <= base -> (base - 1) * levels base d n + n / base ^ d <= n + (base - 1) * d.
Proof.
  intros Hb. destruct base as [|b]; [lia|]. clear Hb. replace (S b - 1) with b by lia.
  induction d as [|d IH]; [cbn [Nat.pow levels]; rewrite Nat.div_1_r; lia|]. cbn [levels].
  assert (HB : S b ^ d <> 0) by (apply Nat.pow_nonzero; lia).
  assert (HB' : S b ^ S d <> 0) by (apply Nat.pow_nonzero; lia).
  pose proof (cdiv_le n (S b ^ S d) ltac:(lia)) as H1.
  assert (H2 : S b * (n / S b ^ S d) <= n / S b ^ d).
  { replace (S b ^ S d) with (S b ^ d * S b) by (rewrite Nat.pow_succ_r'; lia). rewrite <- Nat.div_div by lia. apply Nat.mul_div_le. lia. }
  set (q := n / S b ^ S d) in *. set (x := cdiv n (S b ^ S d)) in *.
  assert (H3 : b * x <= b * q + b) by (replace (b * q + b) with (b * (q + 1)) by lia; apply Nat.mul_le_mono_l; exact H1).
  rewrite Nat.mul_add_distr_l. rewrite (Nat.mul_succ_r b d). cbn [Nat.mul] in H2. lia.
Qed.

(** A loop making [n] steps evaluates the body [n] times; the condition is tested [base] times for each scan that is entered, which is
    at most [base / (base - 1)] times per step and [base] times per level. *)
Theorem C110_forwards {S} (c : S -> bool) f base d s n : 2 <= base -> steps c f s n -> n <= base ^ Datatypes.S d ->
  let e := fst (run c f base (Datatypes.S d) s) in
  snd (run c f base (Datatypes.S d) s) = times n f s /\ bodies e = n /\
  tests e = base * (1 + levels base d n) /\ (base - 1) * tests e <= base * (n + (base - 1) * Datatypes.S d).
Proof.
  intros Hb Hs Hn e. subst e. assert (H0 : 0 < base) by lia.
  destruct (scan_spec c f base H0 d (counts_all c f base H0 d) base s n Hs) as (H1 & H2 & H3).
  change (base * base ^ d) with (base ^ Datatypes.S d) in *. rewrite Nat.min_l in * by exact Hn.
  rewrite run_scan. split; [exact H1|]. split; [exact H2|]. rewrite H3. split; [lia|].
  pose proof (levels_le base d n ltac:(lia)) as HL. set (L := levels base d n) in *.
  destruct base as [|b]; [lia|]. replace (Datatypes.S b - 1) with b in * by lia.
  assert (HL' : b * L <= n + b * d) by (eapply Nat.le_trans; [|exact HL]; apply Nat.le_add_r). clearbody L. clear HL H3. apply (Nat.mul_le_mono_l _ _ (Datatypes.S b)) in HL'.
  replace (b * (Datatypes.S b + Datatypes.S b * L)) with (Datatypes.S b * (b * L) + Datatypes.S b * b) by ring.
  replace (Datatypes.S b * (n + b * Datatypes.S d)) with (Datatypes.S b * (n + b * d) + Datatypes.S b * b) by ring. lia.
Qed.
Print Assumptions C110_forwards.

(** With [max_steps = 1] the body is evaluated once and the condition never, even if the loop makes no step. *)
Theorem C110_once {S} (c : S -> bool) f base s : run c f base 0 s = ([Body], f s) /\ differentiate c f base 0 s = [Save; Body; Vjp s; Drop].
Proof. split; reflexivity. Qed.
Print Assumptions C110_once.

Lemma orbit_seq {S} (f : S -> S) n : forall s, orbit f n s = map (fun k => times k f s) (seq 0 n).
Proof. induction n as [|n IH]; intros s; [reflexivity|]. cbn [orbit seq map times]. rewrite IH, <- seq_shift, map_map. reflexivity. Qed.

(** In reverse mode the body is evaluated once per step and level; it is differentiated at the states of the loop, the last first; and
    there are never more than [base * depth] values stored. *)
Theorem C110_reverse {S} (c : S -> bool) f base d s n : 2 <= base -> steps c f s n -> n <= base ^ Datatypes.S d ->
  let e := differentiate c f base (Datatypes.S d) s in
  bodies e = Datatypes.S d * n /\ vjps e = rev (map (fun k => times k f s) (seq 0 n)) /\ memory (base * Datatypes.S d) 0 e 0.
Proof.
  intros Hb Hs Hn e. assert (H0 : 0 < base) by lia.
  destruct (level_spec c f base H0 d (reverses_all c f base H0 d) s n Hs) as (e' & st & s' & E & H1 & H2).
  rewrite Nat.min_l in * by exact Hn. split; [|split; [|exact (differentiate_memory c f base H0 d s)]].
  - unfold e, differentiate. rewrite E. exact H2.
  - unfold e, differentiate. rewrite E, <- orbit_seq. exact H1.
Qed.
Print Assumptions C110_reverse.

(** The bound on the stored values depends neither on the number of steps nor on whether the loop would end within the bound. *)
Theorem C110_memory {S} (c : S -> bool) f base d (s : S) : 0 < base -> memory (base * Datatypes.S d) 0 (differentiate c f base (Datatypes.S d) s) 0.
Proof. intros Hb. apply differentiate_memory. exact Hb. Qed.
Print Assumptions C110_memory.

Lemma log_ceil_least base m : 2 <= base -> 2 <= m -> base ^ (log_ceil base m - 1) < m.
Proof.
  intros Hb Hm. unfold log_ceil.
  match goal with |- base ^ (?G m 0 1 - 1) < m => set (go := G) end.
  assert (H : forall fuel d pw, pw = base ^ d -> (d = 0 \/ base ^ (d - 1) < m) -> go fuel d pw = 0 \/ base ^ (go fuel d pw - 1) < m).
  { induction fuel as [|fuel IH]; intros d pw -> Hd; [exact Hd|]. cbn [go]. fold go. cbn. destruct (Nat.leb_spec m (base ^ d)) as [L|L]; [exact Hd|].
    apply IH; [cbn; lia|]. right. replace (Datatypes.S d - 1) with d by lia. exact L. }
  destruct (H m 0 1 eq_refl (or_introl eq_refl)) as [E|E]; [|exact E]. rewrite E. cbn. lia.
Qed.

(** The public loop: with lanes stopping after [ss] steps the batched loop makes as many steps as the slowest lane; the number of levels is
    the logarithm of [max_steps], rounded up. *)
Theorem C110_loop {N X} (body : N -> list X -> N * list (write X)) (cond : N -> list X -> bool) mm base inits ss :
  2 <= base -> (2 <= mm)%Z -> Forall2 (lane_stops body cond (Some mm)) inits ss ->
  let c := rw_test cond (Some mm) in let f := rw_step body cond true in let s := (rw_init cond inits, rw_init_bufs inits) in
  let n := list_max ss in
  exists d, bounded_loop body cond mm base inits =
      (let '(s', bs) := snd (run c f base (Datatypes.S d) s) in Ok (rw_result s' bs)) /\
    base ^ d < Z.to_nat mm <= base ^ Datatypes.S d /\
    bodies (fst (run c f base (Datatypes.S d) s)) = n /\
    tests (fst (run c f base (Datatypes.S d) s)) = base * (1 + levels base d n) /\
    bodies (differentiate c f base (Datatypes.S d) s) = Datatypes.S d * n /\
    vjps (differentiate c f base (Datatypes.S d) s) = rev (map (fun k => times k f s) (seq 0 n)).
Proof.
  intros Hb Hm Hss c f s n. pose proof (log_ceil_pos base (Z.to_nat mm) ltac:(lia)) as Hd.
  pose proof (log_ceil_spec base (Z.to_nat mm) Hb) as Hu. pose proof (log_ceil_least base (Z.to_nat mm) Hb ltac:(lia)) as Hl.
  exists (log_ceil base (Z.to_nat mm) - 1). set (d := log_ceil base (Z.to_nat mm) - 1) in *.
  assert (Ed : log_ceil base (Z.to_nat mm) = Datatypes.S d) by lia. rewrite Ed in Hu.
  assert (Hst : forall k s0, times k f (st body cond inits true s0) = st body cond inits true (s0 + k)).
  { induction k as [|k IH]; intros s0; [cbn; f_equal; lia|]. cbn [times]. change (f (st body cond inits true s0)) with (st body cond inits true (Datatypes.S s0)).
    rewrite IH. f_equal. lia. }
  pose proof (mx_bound body cond (Some mm) inits ss Hss) as Hmx. cbn in Hmx. specialize (Hmx ltac:(lia)). fold n in Hmx.
  assert (Hrel := st_rel_all body cond (Some mm) inits ss Hss true (or_introl eq_refl)).
  assert (Htest := fun k => st_test body cond (Some mm) inits ss Hss k).
  assert (Hs : steps c f s n).
  { split; intros; change s with (st body cond inits true 0); rewrite Hst; cbn [Nat.add]; unfold c.
    - rewrite (Htest k); [lia|apply Hrel; lia|lia].
    - rewrite (Htest n); [fold n; lia|apply Hrel; lia|lia]. }
  assert (Hn : n <= base ^ Datatypes.S d) by lia.
  destruct (C110_forwards c f base d s n Hb Hs Hn) as (_ & F2 & F3 & _). destruct (C110_reverse c f base d s n Hb Hs Hn) as (R1 & R2 & _).
  split; [|repeat split; auto; lia].
  rewrite C110_result. unfold bounded_loop. destruct (Z.ltb_spec mm 0); [lia|]. destruct (Z.eqb_spec mm 0); [lia|]. rewrite Ed. reflexivity.
Qed.
Print Assumptions C110_loop.

(** Five steps of a loop with [max_steps = 8] and [base = 2]. *)
Example C110_ex :
  steps (fun k => k <? 5) S 0 5 /\
  snd (run (fun k => k <? 5) S 2 3 0) = 5 /\ bodies (fst (run (fun k => k <? 5) S 2 3 0)) = 5 /\
  tests (fst (run (fun k => k <? 5) S 2 3 0)) = 12 /\ 2 * (1 + levels 2 2 5) = 12 /\
  bodies (differentiate (fun k => k <? 5) S 2 3 0) = 15 /\ vjps (differentiate (fun k => k <? 5) S 2 3 0) = [4; 3; 2; 1; 0].
Proof. split; [split; [intros [|[|[|[|[|k]]]]] H; cbn; auto; lia|reflexivity]|]. repeat split. Qed.
(** With all steps made, the six values are needed. *)
Example C110_memory_ex : ~ memory 5 0 (differentiate (fun k => k <? 8) S 2 3 0) 0.
Proof. vm_compute. intros H. repeat (match goal with H : memory _ _ _ _ |- _ => inversion H; subst; clear H end; try congruence; try lia). Qed.
