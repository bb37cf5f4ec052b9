(** Model of modules as inputs to scans: docs/faq.md lines 143-186 ([rollout]). Composed of the models of [partition] and [combine].

    [jax.lax.scan] is outside /repo; recorded here is what the example relies on:
    - everything carried and returned is an array, else a [TypeError];
    - the carry a step returns has the structure, shapes and dtypes of the one it was given, else a [TypeError]; [ty] is the shape and dtype of an
      array;
    - the values of the steps are stacked; here they are listed.
    JAX traces the body once for all steps, so a body that always fails does so also on inputs of length 0; here it does not run then. *)
From Verif Require Export Filters_Model Prim_Model.

Section Rollout.
  Context {L B : Type}.
  Variable arr : L -> bool.
  Variable ty : L -> nat.
  Notation T := (tree L).

  Definition arrays (t : T) : bool := forallb (on_leaf arr) (leaves no_leaf t).
  Fixpoint same_type (x y : T) : bool :=
    match x, y with
    | Leaf a, Leaf b => Nat.eqb (ty a) (ty b)
    | TNone, TNone => true
    | Node k cs, Node k' ds =>
        Nat.eqb k k' && (fix go cs ds := match cs, ds with [], [] => true | c :: cs, d :: ds => same_type c d && go cs ds | _, _ => false end) cs ds
    | _, _ => false
    end.
  Fixpoint scan_steps (f : T -> B -> res (T * T)) (xs : list B) (c : T) : res (T * list T) :=
    match xs with
    | [] => Ok (c, [])
    | x :: xs' =>
        '(c', y) <- f c x ;;
        if arrays c' && arrays y && same_type c c' then '(c2, ys) <- scan_steps f xs' c' ;; Ok (c2, y :: ys) else Err TypeError
    end.
  Definition lax_scan (f : T -> B -> res (T * T)) (c : T) (xs : list B) : res (T * list T) :=
    if arrays c then scan_steps f xs c else Err TypeError.

  (** Lines 170-182, of a step that may also return another module. *)
  Definition rollout (step : T -> B -> res (T * T)) (model : T) (xs : list B) : res (T * list T) :=
    '(arrs, static) <- eqx_partition no_leaf TNone model (Leaf (SCall (on_leaf arr))) ;;
    lax_scan (fun carry x =>
      model <- eqx_combine no_leaf [carry; static] ;;
      '(model', val) <- step model x ;;
      '(carry', _) <- eqx_partition no_leaf TNone model' (Leaf (SCall (on_leaf arr))) ;;
      Ok (carry', val)) arrs xs.
  (** Lines 173-176: the module is called and carried on; the value is [[val]]. *)
  Definition call_step (list_kind : nat) (call : T -> B -> res T) (model : T) (x : B) : res (T * T) :=
    val <- call model x ;; Ok (model, Node list_kind [val]).
End Rollout.
