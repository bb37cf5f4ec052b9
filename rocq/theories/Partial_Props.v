(** C13: equal Modules have equal hashes; C54: [Partial]; C58: [Static]. *)
From Verif Require Import Partial_Proofs Tree_Facts.

(** C13. For every hash function on leaves that honours Python's contract (equal values have equal
    hashes): if [m == m'] is true (as a Python bool or a JAX array) and both hashes exist, they
    are equal. *)
Theorem C13_equal_hash : forall (hp : nat -> pyval -> option Z) (hn : dtype -> list elem -> Z) (ht : list Z -> Z),
  (forall ty v ty' v' h h', pyval_eqb v v' = true -> hp ty v = Some h -> hp ty' v' = Some h' -> h = h') ->
  (forall d l l', list_eqb elem_eqb l l' = true -> hn d l = hn d l') ->
  forall m m' o h h', module_eq m m' = Ok o -> truth o = true ->
  module_hash hp hn ht m = Ok h -> module_hash hp hn ht m' = Ok h' -> h = h'.
Proof. exact equal_hash. Qed.
Print Assumptions C13_equal_hash.
(** A Module has a hash exactly if no leaf is an array and every other leaf has one. *)
Theorem C13_hashable : forall hp hn ht m,
  (exists h, module_hash hp hn ht m = Ok h) <-> Forall (fun x => hash_leaf hp hn x <> None) (objs m).
Proof.
  intros hp hn ht m. unfold module_hash. induction (objs m) as [|x l IH]; cbn.
  - split; eauto.
  - destruct (hash_leaf hp hn x) as [h|] eqn:E.
    + destruct (hash_leaves hp hn l) as [hs|e]; cbn in *.
      * split; [intros _; constructor; [congruence|apply IH; eauto]|eauto].
      * split; [intros [? H]; discriminate|]. intros H. inversion H as [|y ys H1 H2]; subst. apply IH in H2. auto.
    + split; [intros [? H]; discriminate|]. intros H. inversion H as [|y ys H1 H2]; subst. congruence.
Qed.
Print Assumptions C13_hashable.

Definition hp0 (ty : nat) (v : pyval) : option Z :=
  match v with PNum (EFin q) => Some (Qnum (Qred q) * 7 + Zpos (Qden (Qred q)))%Z | PNum _ => Some 0%Z | PObj n => Some (Z.of_nat n) end.
Definition hn0 (d : dtype) (l : list elem) : Z := Z.of_nat (length l).
Definition ht0 (l : list Z) : Z := fold_right Z.add 0%Z l.
Example C13_ex_contract : forall ty v ty' v' h h', pyval_eqb v v' = true -> hp0 ty v = Some h -> hp0 ty' v' = Some h' -> h = h'.
Proof.
  intros ty [[|n|p]|n] ty' [[|n'|p']|n'] h h' E H H'; cbn in *; try discriminate; try congruence.
  - apply Qeq_bool_iff, Qred_complete in E. rewrite E in H. congruence.
  - apply Nat.eqb_eq in E. congruence.
Qed.
(** [M(1, None) == M(True, None)], and the hashes agree. *)
Example C13_ex : let m v ty := Node 5 [Leaf (OPy ty (PNum (EFin v))); TNone] in
  module_eq (m 1%Q 0) (m (2 # 2)%Q 1) = Ok (RPy true) /\
  module_hash hp0 hn0 ht0 (m 1%Q 0) = Ok 8%Z /\ module_hash hp0 hn0 ht0 (m (2 # 2)%Q 1) = Ok 8%Z.
Proof. repeat split; reflexivity. Qed.
(** With an array inside, [==] works but [hash] raises. *)
Example C13_ex_array : let m := Node 5 [Leaf (OArr {| a_class := JaxArray; a_shape := []; a_dtype := DBool; a_data := [EFin 1] |})] in
  module_eq m m = Ok (RArr true) /\ module_hash hp0 hn0 ht0 m = Err TypeError.
Proof. repeat split; reflexivity. Qed.

(** C54. [Partial(f, *a, **k)( *b, **l )] is [f( *a, *b, **l, **k )] if the keywords are distinct, and
    [TypeError] otherwise... *)
Theorem C54_call : forall V self (f : callable V) a k b l, ~ In self (map fst l) ->
  (NoDup (map fst (l ++ k)) -> partial_call self (partial_init f a k) b l = f (a ++ b) (l ++ k)) /\
  (~ NoDup (map fst (l ++ k)) -> partial_call self (partial_init f a k) b l = Err TypeError).
Proof. intros V. exact call_spec. Qed.
Print Assumptions C54_call.
(** ... provided no keyword is called [self]: those are always rejected, whatever [f] accepts. *)
Theorem C54_self_refuted : forall V self (f : callable V) a k b l, In self (map fst l) ->
  partial_call self (partial_init f a k) b l = Err TypeError.
Proof. intros V. exact call_self. Qed.
Print Assumptions C54_self_refuted.
(** Nesting concatenates. *)
Theorem C54_nest : forall V self (f : callable V) a k b l c m, ~ In self (map fst l) -> NoDup (map fst (l ++ k)) ->
  partial_call self (partial_init (partial_call self (partial_init f a k)) b l) c m =
  partial_call self (partial_init f (a ++ b) (l ++ k)) c m.
Proof. intros V. exact nest. Qed.
Print Assumptions C54_nest.
Definition collect : callable nat := fun a k => Ok (fold_left (fun x y => 10 * x + y) (a ++ map snd k) 0).
Example C54_ex : partial_call 99 (partial_init collect [1] [(5, 3)]) [4] [(6, 0)] = Ok 1403.
Proof. reflexivity. Qed.
Example C54_ex_dup : partial_call 99 (partial_init collect [1; 2] [(5, 3)]) [4] [(5, 7)] = Err TypeError.
Proof. reflexivity. Qed.

(** C58. [Static(v).value] is [v], for every pytree. *)
Theorem C58_static : forall A (v : tree A), static_value (static_init v) = Ok v.
Proof. intros A v. apply unflatten_flatten. Qed.
Print Assumptions C58_static.
(** Two [Static]s have equal metadata exactly if they wrap equal pytrees. *)
Theorem C58_injective : forall A (v w : tree A), static_init v = static_init w <-> v = w.
Proof.
  intros A v w. split; [|congruence]. intros H.
  pose proof (C58_static A v) as Hv. rewrite H, C58_static in Hv. congruence.
Qed.
Print Assumptions C58_injective.
Example C58_ex : static_value (static_init (Node 1 [Leaf 3; TNone; Node 2 []])) = Ok (Node 1 [Leaf 3; TNone; Node 2 []]).
Proof. reflexivity. Qed.
