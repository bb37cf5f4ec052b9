(** Model of Sequential: equinox/nn/_sequential.py lines 14-123.

    - A layer that is no StatefulLayer, or one whose [is_stateful()] is false, is a function of the input
      and the key; a stateful one also takes and returns a state. [None] as a state is the sentinel.
    - Layers may raise. Inputs, keys and states are arbitrary types. *)
From Verif Require Export Base.
Local Open Scope nat_scope.
Local Open Scope list_scope.

Section Sequential.
  Variables (X S K : Type).
  (** [jr.split(key, n)]. *)
  Variable split : K -> nat -> list K.
  Inductive layer :=
  | Plain (f : X -> option K -> res X)
  | Stateful (f : X -> option S -> option K -> res (X * option S))
  | Seq (ls : list layer).
  (** Lines 61-64 (and 38). *)
  Fixpoint is_stateful (l : layer) : bool := match l with Plain _ => false | Stateful _ => true | Seq ls => existsb is_stateful ls end.
  (** What a call returns: one value, or a pair with a state. *)
  Inductive output := Bare (x : X) | Pair (x : X) (s : option S).
  Definition keys_for (key : option K) (n : nat) : list (option K) := match key with None => repeat None n | Some k => map Some (split k n) end.
  Section Loop.
    Variable call : layer -> X -> option S -> option K -> res output.
    (** Lines 101-105. Unpacking one value into two raises (unless it happens to have length two). *)
    Fixpoint loop (ls : list layer) (ks : list (option K)) (x : X) (s : option S) : res (X * option S) :=
      match ls, ks with
      | l :: ls', k :: ks' =>
          if is_stateful l
          then o <- call l x s k ;; match o with Pair x' s' => loop ls' ks' x' s' | Bare _ => Err ValueError end
          else o <- call l x None k ;; match o with Bare x' => loop ls' ks' x' s | Pair _ _ => Err TypeError end
      | _, _ => Ok (x, s)
      end.
  End Loop.
  (** Lines 75-109. [Plain] layers do not take a state. *)
  Fixpoint call (l : layer) (x : X) (s : option S) (key : option K) : res output :=
    match l with
    | Plain f => y <- f x key ;; Ok (Bare y)
    | Stateful f => '(y, s') <- f x s key ;; Ok (Pair y s')
    | Seq ls =>
        '(y, s') <- loop call ls (keys_for key (length ls)) x s ;;
        Ok (match s' with None => Bare y | Some _ => Pair y s' end)
    end.
  (** Lines 111-123. *)
  Definition getitem (ls : list layer) (i : Z) : res layer :=
    let n := Z.of_nat (length ls) in
    let j := if (i <? 0)%Z then (i + n)%Z else i in
    if ((0 <=? j) && (j <? n))%Z then match nth_error ls (Z.to_nat j) with Some l => Ok l | None => Err IndexError end else Err IndexError.
  (** [layers[a:b]] for step 1 *)
  Definition clamp (n : nat) (i : Z) : nat := let j := if (i <? 0)%Z then (i + Z.of_nat n)%Z else i in Nat.min n (Z.to_nat j).
  Definition getslice (ls : list layer) (a b : option Z) : layer :=
    let lo := match a with Some a => clamp (length ls) a | None => 0 end in
    let hi := match b with Some b => clamp (length ls) b | None => length ls end in
    Seq (firstn (hi - lo) (skipn lo ls)).
End Sequential.
