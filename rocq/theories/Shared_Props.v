(** C34: [nn.Shared]; C35: [nn.inference_mode]. *)
From Verif Require Import Shared_Proofs Inference_Proofs.

(** Positions [ps] tied to what [get] returns: for every tree and every [get] that does not look
    at the tied positions, if construction succeeds then calling the result succeeds and gives
    the original tree with [get]'s values at [ps], everything else unchanged. *)
Theorem C34_call : forall A S (aeq : A -> A -> bool) shared_node (struct : A -> S) seqb,
  (forall a, aeq a a = true) -> forall ps get t s,
  separate ps -> ignores ps get ->
  shared_init aeq shared_node struct seqb ps get t = Ok s ->
  exists vs out, get t = Ok (Node ktuple vs) /\ length vs = length ps /\
    shared_call aeq ps get s = Ok out /\ edited t (List.combine ps vs) out.
Proof. intros A S. exact call_ok. Qed.
Print Assumptions C34_call.

(** After replacing the source nodes of the stored tree by [ws], a call shows [ws] in both places. *)
Theorem C34_update : forall A S (aeq : A -> A -> bool) shared_node (struct : A -> S) seqb,
  (forall a, aeq a a = true) -> forall ps qs t s ws s',
  separate ps -> separate qs -> unrelated qs ps -> length ws = length ps ->
  shared_init aeq shared_node struct seqb ps (values_at qs) t = Ok s ->
  tree_at aeq (by_value no_leaf) (where_many qs) s (Some (Node ktuple ws)) None = Ok s' ->
  exists out, shared_call aeq ps (values_at qs) s' = Ok out /\
    edited t (List.combine qs ws ++ List.combine ps ws) out.
Proof. intros A S. exact call_update. Qed.
Print Assumptions C34_update.

(** Nodes of different structure (or with arrays of different shape or dtype) are refused. *)
Theorem C34_mismatch : forall A S (aeq : A -> A -> bool) shared_node (struct : A -> S) seqb ps get t src dst,
  get t = Ok src -> values_at ps t = Ok dst ->
  tree_eqb seqb (lmap struct src) (lmap struct dst) = false ->
  shared_init aeq shared_node struct seqb ps get t = Err ValueError.
Proof. intros A S. exact init_mismatch. Qed.
Print Assumptions C34_mismatch.

(** Leaves are numbers, all of the same shape; 99 is the placeholder. *)
Notation init := (shared_init Nat.eqb 99 (fun _ : nat => tt) (fun _ _ => true)).
Notation call := (shared_call Nat.eqb).
Definition pair : tree nat := Node klist [Node 5 [Leaf 1; Leaf 2]; Node 5 [Leaf 3; Leaf 4]].
Example C34_ex_init : init [[0; 0]] (values_at [[1; 0]]) pair =
  Ok (Node klist [Node 5 [Leaf 99; Leaf 2]; Node 5 [Leaf 3; Leaf 4]]).
Proof. reflexivity. Qed.
Example C34_ex_call : call [[0; 0]] (values_at [[1; 0]]) (Node klist [Node 5 [Leaf 99; Leaf 2]; Node 5 [Leaf 3; Leaf 4]]) =
  Ok (Node klist [Node 5 [Leaf 3; Leaf 2]; Node 5 [Leaf 3; Leaf 4]]).
Proof. reflexivity. Qed.
Example C34_ex_ignores : ignores [[0; 0]] (@values_at nat [[1; 0]]).
Proof.
  intros u u' H. unfold values_at. cbn [mapM].
  assert (sub u [1; 0] = sub u' [1; 0]) as ->; auto.
  apply label_sub. intros q. apply H. intros p [<-|[]] [r E]. discriminate.
Qed.

(** [get] has to keep clear of the tied positions: nothing checks this at construction, and a
    call then hands out the placeholder object. *)
Theorem C34_overlap_refuted : exists ps qs t s out,
  init ps (values_at qs) t = Ok s /\ call ps (values_at qs) s = Ok out /\ In (Leaf 99) (leaves no_leaf out) /\
  ~ In (Leaf 99) (leaves no_leaf t).
Proof.
  exists [[0; 0]], [[0; 0]], pair, (Node klist [Node 5 [Leaf 99; Leaf 2]; Node 5 [Leaf 3; Leaf 4]]),
    (Node klist [Node 5 [Leaf 99; Leaf 2]; Node 5 [Leaf 3; Leaf 4]]).
  split; [reflexivity|]. split; [reflexivity|]. cbn. split; [auto|]. intros H; repeat destruct H as [H|H]; try discriminate; auto.
Qed.
Print Assumptions C34_overlap_refuted.

(** C35. Every [inference] attribute, however deeply nested, gets the new value; every other
    position keeps what it held. *)
Theorem C35_sets_all : forall A (aeq : A -> A -> bool) attr, (forall a, aeq a a = true) ->
  forall v t, flags_are_leaves attr t ->
  exists out, inference_mode aeq attr v t = Ok out /\
    (forall p, is_flag attr t p -> sub out p = Some (Leaf v)) /\
    (forall p, ~ is_flag attr t p -> label_at out p = label_at t p).
Proof. intros A. exact inference_spec. Qed.
Print Assumptions C35_sets_all.

(** The last call wins; in particular the operation is idempotent. *)
Theorem C35_last_wins : forall A (aeq : A -> A -> bool) attr, (forall a, aeq a a = true) ->
  forall v w t out, flags_are_leaves attr t -> inference_mode aeq attr v t = Ok out ->
  inference_mode aeq attr w out = inference_mode aeq attr w t.
Proof. intros A. exact mode_twice. Qed.
Print Assumptions C35_last_wins.
Theorem C35_idempotent : forall A (aeq : A -> A -> bool) attr, (forall a, aeq a a = true) ->
  forall v t out, flags_are_leaves attr t -> inference_mode aeq attr v t = Ok out ->
  inference_mode aeq attr v out = Ok out.
Proof. intros A aeq attr Hr v t out HF H. rewrite (C35_last_wins A aeq attr Hr v v t out HF H). exact H. Qed.
Print Assumptions C35_idempotent.

(** Kind 5 has its flag at index 1; one module inside another. *)
Definition flag5 (k : nat) : option nat := if Nat.eqb k 5 then Some 1 else None.
Definition net : tree nat := Node klist [Node 5 [Node 5 [Leaf 7; Leaf 0]; Leaf 0]; Node 6 [Leaf 0; Node 5 [TNone; Leaf 1]]].
Example C35_ex : inference_mode Nat.eqb flag5 1 net =
  Ok (Node klist [Node 5 [Node 5 [Leaf 7; Leaf 1]; Leaf 1]; Node 6 [Leaf 0; Node 5 [TNone; Leaf 1]]]).
Proof. reflexivity. Qed.
Example C35_ex_hyp : flags_are_leaves flag5 net.
Proof.
  intros q k cs i Hs HA. unfold flag5 in HA. destruct (Nat.eqb_spec k 5) as [->|]; [|discriminate]. injection HA as <-.
  repeat (match type of Hs with
          | sub _ ?q = _ => destruct q as [|[|[|?]] ?]; cbn in Hs; try discriminate
          end;
          try (injection Hs as <-; eexists; reflexivity);
          try (match type of Hs with context [nth_error [] ?n] => destruct n; discriminate end)).
Qed.

(** The restriction to flags that are leaves is needed: two modules with [inference=None]
    make the selection ambiguous. *)
Theorem C35_none_refuted : exists t, inference_mode Nat.eqb flag5 1 t = Err ValueError.
Proof. exists (Node klist [Node 5 [Leaf 1; TNone]; Node 5 [Leaf 2; TNone]]). reflexivity. Qed.
Print Assumptions C35_none_refuted.
