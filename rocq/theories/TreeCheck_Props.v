(** C10: [tree_check]. *)
From Verif Require Import TreeCheck_Proofs.

(** For every finite object graph the check passes exactly when no non-empty container can be
    reached along two different paths (a container on a cycle is reached along infinitely
    many). *)
Theorem C10_passes_iff : forall g root, tree_check g root = Passed tt <->
  forall p q m, leads g root p m -> leads g root q m -> proper g m -> p = q.
Proof. exact passes_iff. Qed.
Print Assumptions C10_passes_iff.

(** It always terminates, with a recursion depth of at most the number of objects. *)
Theorem C10_terminates : forall g root, tree_check g root <> Raised OutOfFuel.
Proof. exact terminates. Qed.
Print Assumptions C10_terminates.

(** The error message is right: "self-referential" means that some reachable container really
    lies on a cycle, "appears multiple times" that it is reached along two paths. *)
Theorem C10_message_cycle : forall g root e,
  tree_check g root = Raised e -> e = ImmediateSelf \/ e = SelfRef ->
  exists p q m, leads g root p m /\ leads g m q m /\ proper g m /\ q <> [].
Proof. intros g root e H [-> | ->]; apply raises_why in H; exact H. Qed.
Print Assumptions C10_message_cycle.
Theorem C10_message_duplicate : forall g root, tree_check g root = Raised Duplicate ->
  exists p q m, leads g root p m /\ leads g root q m /\ proper g m /\ p <> q.
Proof. intros g root H. apply raises_why in H; exact H. Qed.
Print Assumptions C10_message_duplicate.

(** A cycle reachable from the root always raises. *)
Theorem C10_cycle_raises : forall g root p q m, leads g root p m -> leads g m q m -> q <> [] ->
  exists e, tree_check g root = Raised e.
Proof.
  intros g root p q m H1 H2 HQ. destruct (tree_check g root) as [[]|e] eqn:E; [|eauto].
  exfalso. assert (HP : proper g m) by (destruct q as [|i q]; [congruence|eapply leads_proper; eauto]).
  assert (p = p ++ q) as EQ by (eapply C10_passes_iff; eauto; eapply leads_app; eauto).
  apply HQ. rewrite <- (app_nil_r p) in EQ at 1. apply app_inv_head in EQ. auto.
Qed.
Print Assumptions C10_cycle_raises.

(** [a = 1; [a, a, [], []]] with one shared empty list; [e = [1]; [e, e]]; [x = []; x.append(x)];
    [x = []; y = [x]; x.append(y)]; [[[1], [1]]]. *)
Example C10_ex_leaf : tree_check [Some [1; 1; 2; 2]; None; Some []] 0 = Passed tt.
Proof. reflexivity. Qed.
Example C10_ex_dup : tree_check [Some [1; 1]; Some [2]; None] 0 = Raised Duplicate.
Proof. reflexivity. Qed.
Example C10_ex_self : tree_check [Some [0]] 0 = Raised ImmediateSelf.
Proof. reflexivity. Qed.
Example C10_ex_cycle : tree_check [Some [1]; Some [0]] 0 = Raised SelfRef.
Proof. reflexivity. Qed.
Example C10_ex_equal : tree_check [Some [1; 2]; Some [3]; Some [3]; None] 0 = Passed tt.
Proof. reflexivity. Qed.
