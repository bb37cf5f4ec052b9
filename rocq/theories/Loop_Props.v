(** Properties C23-C30: while loops, online checkpointing, scan. *)
From Verif Require Import Base Ckpt_Model Ckpt_Spec Ckpt_Proofs Ckpt_Proofs2 Ckpt_Proofs3
  Loop_Model Loop_Spec Loop_Proofs Loop_Proofs2.
Open Scope Z_scope.

(** ** Example loop: count up to 5, recording squares in a buffer. *)
Definition ex_body (v : Z) (b : list Z) : Z * list (write Z) :=
  (v + 1, [{| w_idx := Z.to_nat v; w_val := v * v; w_pred := None |}]).
Definition ex_cond (v : Z) (b : list Z) : bool := v <? 5.
(** A chain [x := w * x] with its VJP ([w] is the parameter). *)
Definition ex_f (w x : Z) (b : unit) : Z := w * x.
Definition ex_vjp (w x : Z) (b : unit) (g : Z) : Z * Z := (g * x, g * w).

(** ** C23 *)

(** All kinds of loop return, for each lane, what iterating the body while the condition
    holds (at most [max_steps] times) gives, with no further step. *)
Theorem C23_while_loop_value :
  forall {N X} (body : N -> list X -> N * list (write X)) cond kind fuel max_steps checkpoints base
         init s,
    fits_kind kind max_steps checkpoints base ->
    lane_stops body cond max_steps init s -> (s < fuel)%nat ->
    while_loop body cond kind fuel max_steps checkpoints base false [init] =
      Ok (Some [plain_run body s init]).
Proof.
  intros N X body cond kind fuel max_steps checkpoints base init s Hk Hs Hf.
  exact (while_loop_single body cond kind fuel max_steps checkpoints base init s Hk Hs Hf).
Qed.
Print Assumptions C23_while_loop_value.

(** The differentiated forward pass computes the same value, number of steps and buffers. *)
Theorem C23_checkpointed_forward :
  forall {N Bf} (fN : N -> Bf -> N) fB cond intmax fill C max_steps v0 b0 n fuel,
    1 <= C -> within C max_steps n -> Z.of_nat n <= intmax ->
    stops_at fN fB cond v0 b0 n -> (n < fuel)%nat ->
    exists res, ckpt_fwd fN fB cond intmax fill C max_steps fuel v0 b0 =
      Some (Z.of_nat n, fst (traj fN fB v0 b0 n), snd (traj fN fB v0 b0 n), res).
Proof.
  intros N Bf fN fB cond intmax fill C max_steps v0 b0 n fuel HC Hin Him Hs Hf.
  destruct (ckpt_fwd_correct fN fB intmax fill C max_steps v0 b0 HC cond n fuel Hs Hin Him Hf) as (res & H & _).
  exact (ex_intro _ res H).
Qed.
Print Assumptions C23_checkpointed_forward.

(** It needs exactly as many iterations as the plain loop: with fuel [n] or less it does
    not finish. *)
Theorem C23_checkpointed_forward_steps :
  forall {N Bf} (fN : N -> Bf -> N) fB cond intmax fill C max_steps v0 b0 n fuel,
    1 <= C -> within C max_steps n -> Z.of_nat n <= intmax ->
    stops_at fN fB cond v0 b0 n -> (fuel <= n)%nat ->
    ckpt_fwd fN fB cond intmax fill C max_steps fuel v0 b0 = None.
Proof.
  intros N Bf fN fB cond intmax fill C max_steps v0 b0 n fuel HC Hin Him Hs Hf.
  exact (ckpt_fwd_fuel fN fB intmax fill C max_steps v0 b0 HC cond n fuel (proj1 Hs) Hin Him Hf).
Qed.
Print Assumptions C23_checkpointed_forward_steps.

(** The loop handed to the checkpointing machinery stops exactly when the slowest lane does. *)
Theorem C23_rewritten_loop_stops :
  forall {N X} (body : N -> list X -> N * list (write X)) cond max_steps inits ss batched,
    Forall2 (lane_stops body cond max_steps) inits ss ->
    (batched = true \/ (forall s, In s ss -> s = list_max ss)) ->
    stops_at (rw_fN body cond batched) (rw_fB body cond batched) (rw_cond cond max_steps)
             (rw_init cond inits) (rw_init_bufs inits) (list_max ss).
Proof.
  intros N X body cond max_steps inits ss batched H1 H2.
  exact (st_stops body cond max_steps inits ss H1 batched H2).
Qed.
Print Assumptions C23_rewritten_loop_stops.

Example C23_ex1 :
  while_loop ex_body ex_cond KCheckpointed 100 (Some 4) None 16 false [(1, repeat 0 6)]
  = Ok (Some [(5, [0; 1; 4; 9; 16; 0])]).
Proof. reflexivity. Qed.
Example C23_ex2 :
  while_loop ex_body ex_cond KCheckpointed 100 (Some 2) None 16 false [(1, repeat 0 6)]
  = Ok (Some [(3, [0; 1; 4; 0; 0; 0])]).
Proof. reflexivity. Qed.
Example C23_ex3 : lane_stops ex_body ex_cond (Some 4) (1, repeat 0 6) 4.
Proof.
  split; [|split]; [|lia|left; reflexivity].
  intros k Hk. destruct k as [|[|[|[|k]]]]; try reflexivity. lia.
Qed.
(** 7 steps with 2 checkpoints: value, number of steps, and the checkpoints kept. *)
Example C23_ex4 :
  ckpt_fwd (ex_f 2) (fun _ b => b) (fun x _ => x <? 100) 1000 0 2 None 100 1 tt
  = Some (7, 128, tt, [(0, 1); (6, 64)]).
Proof. reflexivity. Qed.

(** ** C24 *)

(** State of the checkpoints after [k] steps. *)
Theorem C24_buffer_invariant :
  forall {N Bf} (fN : N -> Bf -> N) fB intmax fill C max_steps v0 b0 k,
    1 <= C -> within C max_steps k -> Z.of_nat k <= intmax ->
    let c := Nat.iter k (fwd_body fN fB C max_steps) (fwd_init intmax fill C v0 b0) in
    length (f_res c) = Z.to_nat C /\
    (* slots 0, ..., min(k, C) - 1 hold steps already taken, with their values *)
    (forall j s v, nth_error (f_res c) j = Some (s, v) -> Z.of_nat j < Z.min (Z.of_nat k) C ->
       0 <= s < Z.of_nat k /\ v = fst (traj fN fB v0 b0 (Z.to_nat s))) /\
    (* the other slots are marked as unused *)
    (forall j s v, nth_error (f_res c) j = Some (s, v) -> Z.min (Z.of_nat k) C <= Z.of_nat j -> s = intmax) /\
    (* no step is recorded twice *)
    (forall i j s v v', nth_error (f_res c) i = Some (s, v) -> nth_error (f_res c) j = Some (s, v') ->
       Z.of_nat i < Z.min (Z.of_nat k) C -> Z.of_nat j < Z.min (Z.of_nat k) C -> i = j) /\
    (* slot 0 holds step 0 *)
    ((0 < k)%nat -> forall s v, nth_error (f_res c) 0 = Some (s, v) -> s = 0).
Proof.
  intros N Bf fN fB intmax fill C max_steps v0 b0 k HC Hin Him c.
  destruct (fwd_inv_all fN fB intmax fill C max_steps v0 b0 HC k Hin Him k (le_n k)) as (_ & _ & (A & B & D & E & _) & _).
  rewrite (fstate_iter fN fB intmax fill C max_steps v0 b0) in *. fold c in A, B, D, E.
  split; [exact A|]. split; [|split; [|split]].
  - intros j s v H1 H2. specialize (B j s v H1). destruct (Z.ltb_spec (Z.of_nat j) (Z.min (Z.of_nat k) C)); [exact B|lia].
  - intros j s v H1 H2. specialize (B j s v H1). destruct (Z.ltb_spec (Z.of_nat j) (Z.min (Z.of_nat k) C)); [lia|exact B].
  - exact D.
  - intros H1 s v H2. apply (E s v H2). lia.
Qed.
Print Assumptions C24_buffer_invariant.

(** Every save goes to a slot in range, and never to slot 0 except at step 0. *)
Theorem C24_writes_in_range :
  forall {N Bf} (fN : N -> Bf -> N) fB intmax fill C max_steps v0 b0 k idx st2,
    1 <= C -> within C max_steps (S k) -> Z.of_nat k < intmax ->
    let c := Nat.iter k (fwd_body fN fB C max_steps) (fwd_init intmax fill C v0 b0) in
    should_save C max_steps (f_step c) (f_save c) (map fst (f_res c)) = (true, idx, st2) ->
    0 <= idx < C /\ (idx = 0 <-> k = 0%nat).
Proof.
  intros N Bf fN fB intmax fill C max_steps v0 b0 k idx st2 HC Hin Him c Hs.
  assert (Hin' : within C max_steps k) by (apply (within_le C max_steps k (S k)); [lia|exact Hin]).
  assert (Him' : Z.of_nat k <= intmax) by lia.
  pose proof (fwd_inv_all fN fB intmax fill C max_steps v0 b0 HC k Hin' Him' k (le_n k)) as HI.
  rewrite (fstate_iter fN fB intmax fill C max_steps v0 b0) in HI. fold c in HI.
  destruct (should_save_key fN fB intmax fill C max_steps v0 b0 HC k c true idx st2 HI Hin Him Hs) as (H & _).
  specialize (H eq_refl). lia.
Qed.
Print Assumptions C24_writes_in_range.

(** Exactly the first [C] steps fill the slots in order. *)
Example C24_ex1 :
  map fst (f_res (Nat.iter 20 (fwd_body (ex_f 1) (fun _ b => b) 3 None) (fwd_init 1000 0 3 1 tt)))
  = [0; 19; 15].
Proof. reflexivity. Qed.
Example C24_ex2 :
  map fst (f_res (Nat.iter 2 (fwd_body (ex_f 1) (fun _ b => b) 3 None) (fwd_init 1000 0 3 1 tt)))
  = [0; 1; 1000].
Proof. reflexivity. Qed.

(** ** C25 *)

(** For every number of steps and every number of checkpoints, running the forward pass and
    then the backward pass gives reverse-mode differentiation of the unrolled loop. *)
Theorem C25_exact_gradient :
  forall {N Bf G P} (fN : N -> Bf -> N) fB cond vjp (addP : P -> P -> P) intmax fill C max_steps v0 b0 n
         fuel fuel' (g : G) p,
    1 <= C -> within C max_steps n -> Z.of_nat n < intmax ->
    stops_at fN fB cond v0 b0 n ->
    buffers_write_once fN fB vjp v0 b0 n ->
    (n < fuel)%nat -> (n * (n + 1) + 1 < fuel')%nat ->
    exists num_steps v b res,
      ckpt_fwd fN fB cond intmax fill C max_steps fuel v0 b0 = Some (num_steps, v, b, res) /\
      ckpt_bwd fN intmax fill C max_steps vjp addP fuel' num_steps b g p res =
        Some (backprop fN fB vjp addP v0 b0 n g p).
Proof.
  intros N Bf G P fN fB cond vjp addP intmax fill C max_steps v0 b0 n fuel fuel' g p HC Hin Him Hs Hwo Hf Hf'.
  destruct (ckpt_fwd_correct fN fB intmax fill C max_steps v0 b0 HC cond n fuel Hs Hin (Z.lt_le_incl _ _ Him) Hf)
    as (res & H1 & H2 & H3 & H4).
  exact (ex_intro _ _ (ex_intro _ _ (ex_intro _ _ (ex_intro _ res (conj H1
    (ckpt_bwd_correct fN fB intmax fill C max_steps v0 b0 HC vjp addP n Him Hin Hwo res g p fuel' H2 H3 H4 Hf')))))).
Qed.
Print Assumptions C25_exact_gradient.

(** Reverse mode is the transpose of forward mode: pairing the cotangents it returns with
    any tangents equals pairing the output cotangent with the derivative of the whole loop. *)
Theorem C25_backprop_is_transpose :
  forall {N Bf G P T Q K} (fN : N -> Bf -> N) fB v0 b0 (jvp : N -> Bf -> T -> Q -> T)
         (vjp : N -> Bf -> G -> P * G) addP plus (pairG : G -> T -> K) pairP,
    (forall a b, plus a b = plus b a) ->
    (forall a b c, plus a (plus b c) = plus (plus a b) c) ->
    (forall p q d, pairP (addP p q) d = plus (pairP p d) (pairP q d)) ->
    is_transpose jvp plus pairG pairP vjp ->
    forall n g p dx dp,
      plus (pairG g (tangent fN fB v0 b0 jvp n dx dp)) (pairP p dp) =
      plus (pairG (fst (backprop fN fB vjp addP v0 b0 n g p)) dx)
           (pairP (snd (backprop fN fB vjp addP v0 b0 n g p)) dp).
Proof.
  intros N Bf G P T Q K fN fB v0 b0 jvp vjp addP plus pairG pairP H1 H2 H3 H4 n g p dx dp.
  exact (backprop_adjoint fN fB v0 b0 jvp vjp addP plus pairG pairP H1 H2 H3 H4 dx dp n g p).
Qed.
Print Assumptions C25_backprop_is_transpose.

(** [x := 3 x] six times from [x = 2] with 2 checkpoints: d/dx = 3^6, d/dw = 6 * 3^5 * 2. *)
Example C25_ex1 :
  match ckpt_fwd (ex_f 3) (fun _ b => b) (fun x _ => x <? 1000) 10000 0 2 None 100 2 tt with
  | Some (n, v, b, res) => (n, v, ckpt_bwd (ex_f 3) 10000 0 2 None (ex_vjp 3) Z.add 100 n b 1 0 res)
  | None => (0, 0, None)
  end = (6, 1458, Some (729, 2916)).
Proof. reflexivity. Qed.
Example C25_ex2 : is_transpose (fun x (b : unit) dx dw => dx * 3 + x * dw) Z.add Z.mul Z.mul (ex_vjp 3).
Proof. intros x b g dx dw. cbn. lia. Qed.
Example C25_ex3 : buffers_write_once (ex_f 3) (fun _ b => b) (ex_vjp 3) 2 tt 6.
Proof. intros k Hk. split; reflexivity. Qed.

(** ** C26 *)

(** Every state in which the backward loop runs its body is consistent: the primal is behind
    the cotangent and is the loop value of its step; at most [C] checkpoints are in use, all
    holding true loop values at increasing steps starting with step 0. *)
Theorem C26_backward_states :
  forall {N Bf G P} (fN : N -> Bf -> N) fB cond vjp (addP : P -> P -> P) intmax fill C max_steps v0 b0 n
         fuel (g : G) p res,
    1 <= C -> within C max_steps n -> Z.of_nat n < intmax ->
    stops_at fN fB cond v0 b0 n ->
    buffers_write_once fN fB vjp v0 b0 n ->
    (n < fuel)%nat ->
    ckpt_fwd fN fB cond intmax fill C max_steps fuel v0 b0
      = Some (Z.of_nat n, fst (traj fN fB v0 b0 n), snd (traj fN fB v0 b0 n), res) ->
    let step := bwd_body fN intmax fill C max_steps vjp addP (snd (traj fN fB v0 b0 n)) in
    forall k, (forall j, (j <= k)%nat ->
                 0 < b_sg (Nat.iter j step (bwd_init intmax fill C max_steps (Z.of_nat n) g p res))) ->
    let c := Nat.iter k step (bwd_init intmax fill C max_steps (Z.of_nat n) g p res) in
    0 <= b_sv c < b_sg c /\ b_sg c <= Z.of_nat n /\
    b_val c = fst (traj fN fB v0 b0 (Z.to_nat (b_sv c))) /\
    0 <= b_index c <= C /\ length (b_res c) = Z.to_nat C /\
    good_checkpoints fN fB v0 b0 n (firstn (Z.to_nat (b_index c)) (b_res c)).
Proof.
  intros N Bf G P fN fB cond vjp addP intmax fill C max_steps v0 b0 n fuel g p res HC Hin Him Hs Hwo Hf Hfwd step k Hk c.
  destruct (ckpt_fwd_correct fN fB intmax fill C max_steps v0 b0 HC cond n fuel Hs Hin (Z.lt_le_incl _ _ Him) Hf)
    as (res' & H1 & H2 & H3 & H4).
  rewrite Hfwd in H1. inversion H1; subst res'.
  assert (Hn0 : n <> 0%nat).
  { intros ->. specialize (Hk 0%nat (Nat.le_0_l _)). unfold bwd_init in Hk.
    destruct (load _ _ _ _ _ _ _) as [[? ?] ?]. cbn in Hk. lia. }
  pose proof (bwd_init_inv fN fB intmax fill C max_steps v0 b0 HC vjp addP n Him Hin res g p H2 H3 H4 Hn0) as HI.
  pose proof (bwd_reach fN fB intmax fill C max_steps v0 b0 HC vjp addP n Him Hwo g p _ HI k Hk) as HR.
  fold step in HR. fold c in HR.
  destruct HR as (R1 & R2 & R3 & (S1 & S2 & S3 & S4 & S5 & _) & _).
  split; [exact R1|]. split; [exact R2|]. split; [exact R3|]. split; [exact S2|]. split; [exact S1|].
  split; [|split].
  - intros j s v Hj. rewrite nth_error_firstn in Hj. destruct (Nat.ltb_spec j (Z.to_nat (b_index c))); [|discriminate].
    apply (S3 j s v Hj). lia.
  - intros i j s v s' v' Hi Hj Hij. rewrite nth_error_firstn in Hi, Hj.
    destruct (Nat.ltb_spec i (Z.to_nat (b_index c))); [|discriminate].
    destruct (Nat.ltb_spec j (Z.to_nat (b_index c))); [|discriminate].
    apply (S4 i j s v s' v' Hi Hj Hij). lia.
  - intros s v Hj. rewrite nth_error_firstn in Hj. destruct (Nat.ltb_spec 0 (Z.to_nat (b_index c))); [|discriminate].
    apply (S5 s v Hj). lia.
Qed.
Print Assumptions C26_backward_states.

(** The backward loop stops, whatever the checkpoints: at most [n (n + 1) + 1] iterations. *)
Theorem C26_backward_terminates :
  forall {N Bf G P} (fN : N -> Bf -> N) fB cond vjp (addP : P -> P -> P) intmax fill C max_steps v0 b0 n
         fuel (g : G) p,
    1 <= C -> within C max_steps n -> Z.of_nat n < intmax ->
    stops_at fN fB cond v0 b0 n ->
    buffers_write_once fN fB vjp v0 b0 n ->
    (n < fuel)%nat ->
    exists num_steps v b res,
      ckpt_fwd fN fB cond intmax fill C max_steps fuel v0 b0 = Some (num_steps, v, b, res) /\
      ckpt_bwd fN intmax fill C max_steps vjp addP (n * (n + 1) + 2) num_steps b g p res <> None.
Proof.
  intros N Bf G P fN fB cond vjp addP intmax fill C max_steps v0 b0 n fuel g p HC Hin Him Hs Hwo Hf.
  destruct (C25_exact_gradient fN fB cond vjp addP intmax fill C max_steps v0 b0 n fuel (n * (n + 1) + 2) g p
              HC Hin Him Hs Hwo Hf) as (a & b & c & d & H1 & H2); [lia|].
  exists a, b, c, d. split; [exact H1|]. rewrite H2. discriminate.
Qed.
Print Assumptions C26_backward_terminates.

(** With one checkpoint per step ([checkpoints == max_steps]) nothing is recomputed: the
    backward loop makes at most [n] iterations. *)
Theorem C26_single_sweep :
  forall {N Bf G P} (fN : N -> Bf -> N) fB cond vjp (addP : P -> P -> P) intmax fill C v0 b0 n
         fuel (g : G) p,
    1 <= C -> Z.of_nat n <= C -> Z.of_nat n < intmax ->
    stops_at fN fB cond v0 b0 n ->
    buffers_write_once fN fB vjp v0 b0 n ->
    (n < fuel)%nat ->
    exists num_steps v b res,
      ckpt_fwd fN fB cond intmax fill C (Some C) fuel v0 b0 = Some (num_steps, v, b, res) /\
      ckpt_bwd fN intmax fill C (Some C) vjp addP (n + 1) num_steps b g p res <> None.
Proof.
  intros N Bf G P fN fB cond vjp addP intmax fill C v0 b0 n fuel g p HC HnC Him Hs Hwo Hf.
  assert (Hin : within C (Some C) n) by (split; lia).
  destruct (ckpt_fwd_correct fN fB intmax fill C (Some C) v0 b0 HC cond n fuel Hs Hin (Z.lt_le_incl _ _ Him) Hf)
    as (res & H1 & H2 & H3 & H4).
  eexists _, _, _, res. split; [exact H1|].
  unfold ckpt_bwd. destruct (Nat.eq_dec n 0) as [->|Hn0].
  - unfold bwd_init. destruct (load _ _ _ _ _ _ _) as [[? ?] ?]. discriminate.
  - pose proof (bwd_init_inv fN fB intmax fill C (Some C) v0 b0 HC vjp addP n Him Hin res g p H2 H3 H4 Hn0) as HI.
    destruct (bwd_single_sweep fN fB intmax fill C (Some C) v0 b0 HC vjp addP n Him Hwo g p (Z.eqb_refl C)
                n _ HI) with (fuel := (n + 1)%nat) as [c' ->].
    + unfold bwd_init. destruct (load _ _ _ _ _ _ _) as [[? ?] ?]. reflexivity.
    + lia.
    + discriminate.
Qed.
Print Assumptions C26_single_sweep.

Example C26_ex1 :
  match ckpt_fwd (ex_f 3) (fun _ b => b) (fun x _ => x <? 1000) 10000 0 8 (Some 8) 100 2 tt with
  | Some (n, v, b, res) => ckpt_bwd (ex_f 3) 10000 0 8 (Some 8) (ex_vjp 3) Z.add 7 n b 1 0 res
  | None => None
  end = Some (729, 2916).
Proof. reflexivity. Qed.

(** ** C27 *)

Theorem C27_default_checkpoints :
  forall m, 1 <= m ->
    exists c, choose_checkpoints None (Some m) = Ok c /\
      1 <= c <= m /\ 2 * m < (c + 1) * (c + 2) /\
      (forall c', 0 <= c' -> 2 * m < (c' + 1) * (c' + 2) -> c <= c') /\
      (* the first of the two schedules covers all [m] steps *)
      m <= u2_minus_1 c.
Proof.
  intros m Hm. exists (default_checkpoints m).
  pose proof (default_range m Hm) as Hr.
  assert (H2 : 2 * m < (default_checkpoints m + 1) * (default_checkpoints m + 2))
    by (apply default_le; lia).
  split; [|split; [exact Hr|split; [exact H2|split; [|exact (default_fast m Hm)]]]].
  - unfold choose_checkpoints.
    replace ((m =? 1) || (2 * m <? (default_checkpoints m + 1) * (default_checkpoints m + 2))) with true by lia.
    cbn [bind]. destruct (Z.ltb_spec (default_checkpoints m) 1); [lia|]. f_equal. lia.
  - intros c' H0 H. apply default_le; lia.
Qed.
Print Assumptions C27_default_checkpoints.

(** Explicit arguments: at least one checkpoint, never more than [max_steps]. *)
Theorem C27_explicit_checkpoints :
  forall c max_steps,
    choose_checkpoints (Some c) max_steps =
      (if c <? 1 then Err ValueError
       else Ok (match max_steps with Some m => Z.min c m | None => c end)) /\
    choose_checkpoints None None = Err ValueError.
Proof. intros c max_steps. exact (conj eq_refl eq_refl). Qed.
Print Assumptions C27_explicit_checkpoints.

(** [max_steps = 0] returns the initial value only if the number of checkpoints is given:
    with the default it is an error. *)
Theorem C27_zero_steps_default :
  forall {N X} (body : N -> list X -> N * list (write X)) cond fuel batched lanes c,
    1 <= c ->
    checkpointed_loop body cond fuel None (Some 0) batched lanes = Err ValueError /\
    checkpointed_loop body cond fuel (Some c) (Some 0) batched lanes = Ok (Some lanes).
Proof.
  intros N X body cond fuel batched lanes c Hc. split; [reflexivity|].
  unfold checkpointed_loop, choose_checkpoints. cbn [bind].
  destruct (Z.ltb_spec c 1); [lia|reflexivity].
Qed.
Print Assumptions C27_zero_steps_default.

Example C27_ex : map (fun m => choose_checkpoints None (Some m)) [1; 2; 3; 10; 100; 5050]
  = [Ok 1; Ok 1; Ok 2; Ok 4; Ok 13; Ok 100].
Proof. reflexivity. Qed.

(** ** C28 *)

Theorem C28_bounded_loop :
  forall {N X} (body : N -> list X -> N * list (write X)) cond max_steps base inits ss,
    (2 <= base)%nat -> 0 <= max_steps ->
    Forall2 (lane_stops body cond (Some max_steps)) inits ss ->
    bounded_loop body cond max_steps base inits =
      Ok (map (fun vs => plain_run body (snd vs) (fst vs)) (List.combine inits ss)).
Proof.
  intros N X body cond max_steps base inits ss H1 H2 H3.
  exact (bounded_loop_correct body cond max_steps base inits ss H1 H2 H3).
Qed.
Print Assumptions C28_bounded_loop.

Theorem C28_bounded_edge_cases :
  forall {N X} (body : N -> list X -> N * list (write X)) cond base inits,
    (forall m, m < 0 -> bounded_loop body cond m base inits = Err ValueError) /\
    bounded_loop body cond 0 base inits = Ok inits.
Proof.
  intros N X body cond base inits. split; [|reflexivity].
  intros m Hm. unfold bounded_loop. destruct (Z.ltb_spec m 0); [reflexivity|lia].
Qed.
Print Assumptions C28_bounded_edge_cases.

Example C28_ex1 : bounded_loop ex_body ex_cond 3 2 [(1, repeat 0 6)] = Ok [(4, [0; 1; 4; 9; 0; 0])].
Proof. reflexivity. Qed.
Example C28_ex2 : bounded_loop ex_body ex_cond 1 2 [(7, repeat 0 6)] = Ok [(7, repeat 0 6)].
Proof. reflexivity. Qed.
Example C28_ex3 : bounded_loop ex_body ex_cond 100 3 [(1, repeat 0 6); (9, []); (4, [])]
  = Ok [(5, [0; 1; 4; 9; 16; 0]); (9, []); (5, [])].
Proof. reflexivity. Qed.

(** ** C29 *)

(** Under vmap (batched predicate), every lane gets its own result, buffers included. *)
Theorem C29_batched_loop :
  forall {N X} (body : N -> list X -> N * list (write X)) cond kind fuel max_steps checkpoints base inits ss,
    fits_kind kind max_steps checkpoints base ->
    Forall2 (lane_stops body cond max_steps) inits ss ->
    (list_max ss < fuel)%nat ->
    while_loop body cond kind fuel max_steps checkpoints base true inits =
      Ok (Some (map (fun vs => plain_run body (snd vs) (fst vs)) (List.combine inits ss))).
Proof.
  intros N X body cond kind fuel max_steps checkpoints base inits ss H1 H2 H3.
  exact (while_loop_correct body cond kind fuel max_steps checkpoints base true inits ss H1 H2 (or_introl eq_refl) H3).
Qed.
Print Assumptions C29_batched_loop.

(** Consequently batching commutes with the loop. *)
Theorem C29_batch_is_map :
  forall {N X} (body : N -> list X -> N * list (write X)) cond kind fuel max_steps checkpoints base inits ss,
    fits_kind kind max_steps checkpoints base ->
    Forall2 (lane_stops body cond max_steps) inits ss ->
    (list_max ss < fuel)%nat ->
    exists outs,
      while_loop body cond kind fuel max_steps checkpoints base true inits = Ok (Some outs) /\
      Forall2 (fun init out =>
        while_loop body cond kind fuel max_steps checkpoints base false [init] = Ok (Some [out])) inits outs.
Proof.
  intros N X body cond kind fuel max_steps checkpoints base inits ss H1 H2 H3.
  eexists. split; [exact (C29_batched_loop body cond kind fuel max_steps checkpoints base inits ss H1 H2 H3)|].
  assert (Hle : forall s, In s ss -> (s < fuel)%nat).
  { intros s Hs. assert (Hx : (list_max ss <= list_max ss)%nat) by lia.
    apply list_max_le in Hx. rewrite Forall_forall in Hx. specialize (Hx s Hs). lia. }
  clear H3. induction H2 as [|vb s l l' Hs Hl IH]; cbn; constructor.
  - exact (C23_while_loop_value body cond kind fuel max_steps checkpoints base vb s H1 Hs (Hle s (or_introl eq_refl))).
  - apply IH. intros s' Hs'. apply Hle. right. exact Hs'.
Qed.
Print Assumptions C29_batch_is_map.

Example C29_ex :
  while_loop ex_body ex_cond KLax 100 None None 16 true [(1, repeat 0 6); (9, []); (4, [])]
  = Ok (Some [(5, [0; 1; 4; 9; 16; 0]); (9, []); (5, [])]).
Proof. reflexivity. Qed.

(** ** C30 *)

Theorem C30_scan_partial :
  forall {Cr Xs Y} (f : Cr -> Xs -> Cr * Y) xs dx fuel length_arg ck init ys0,
    (0 < length xs)%nat ->
    (match ck with SInt c => 1 <= c | _ => True end) ->
    (length_arg = None \/ length_arg = Some (length xs)) ->
    length ys0 = length xs -> (length xs < fuel)%nat ->
    scan_checkpointed f xs dx fuel length_arg ck init ys0 = Ok (Some (scan_spec f xs init)).
Proof.
  intros Cr Xs Y f xs dx fuel length_arg ck init ys0 H1 H2 H3 H4 H5.
  exact (scan_correct f xs dx fuel length_arg ck init ys0 H1 H2 H3 H4 H5).
Qed.
Print Assumptions C30_scan_partial.

Theorem C30_scan_bad_length :
  forall {Cr Xs Y} (f : Cr -> Xs -> Cr * Y) xs dx fuel l ck init ys0,
    l <> length xs ->
    scan_checkpointed f xs dx fuel (Some l) ck init ys0 = Err ValueError.
Proof.
  intros Cr Xs Y f xs dx fuel l ck init ys0 H. unfold scan_checkpointed, scan_length.
  destruct (Nat.eqb_spec l (length xs)); [contradiction|reflexivity].
Qed.
Print Assumptions C30_scan_bad_length.

(** Nothing to scan over: [jax.lax.scan] returns the initial carry and no outputs; here that takes an
    explicit number of checkpoints. Both [checkpoints=None] and [checkpoints="all"] raise. *)
Theorem C30_empty_refuted :
  forall {Cr Xs Y} (f : Cr -> Xs -> Cr * Y) dx fuel length_arg ck init,
    (length_arg = None \/ length_arg = Some 0%nat) ->
    scan_checkpointed f [] dx fuel length_arg ck init [] =
      match ck with
      | SInt c => if 1 <=? c then Ok (Some (scan_spec f [] init)) else Err ValueError
      | SNone | SAll => Err ValueError
      end.
Proof.
  intros Cr Xs Y f dx fuel length_arg ck init [->| ->]; destruct ck as [|c|]; try reflexivity;
    unfold scan_checkpointed, scan_length, checkpointed_loop, choose_checkpoints; cbn [length bind Nat.eqb Z.of_nat];
    (destruct (Z.ltb_spec c 1), (Z.leb_spec 1 c); [lia|reflexivity|reflexivity|lia]).
Qed.
Print Assumptions C30_empty_refuted.

Example C30_ex : scan_checkpointed (fun c x => (c + x, c * x)) [1; 2; 3; 4] 0 10 None SNone 10 [0;0;0;0]
  = Ok (Some (20, [10; 22; 39; 64])).
Proof. reflexivity. Qed.
Close Scope Z_scope.

(** Kinds that do not exist, and ["bounded"] without [max_steps], are refused. *)
Theorem C23_refused : forall N X (body : N -> list X -> N * list (write X)) cond fuel checkpoints base batched lanes,
  (forall max_steps, while_loop body cond KOther fuel max_steps checkpoints base batched lanes = Err ValueError) /\
  while_loop body cond KBounded fuel None checkpoints base batched lanes = Err ValueError.
Proof. intros. split; reflexivity. Qed.
Print Assumptions C23_refused.
