(** Model of scan-over-layers, docs/tricks.md lines 180-229: layers of the same structure are created together under
    [filter_vmap]; calling them scans over the extra dimension of their arrays, the rest of the layer being shared.
    Composed of the models of [filter_vmap], [partition] and [combine].

    [jax.lax.scan] is outside /repo; recorded here is what the example relies on:
    - everything scanned over and carried is an array (Python numbers as carry are not modelled);
    - there is something to scan over, and all of it has the same length;
    - the body gets element [i] of every array scanned over, for [i] from 0, and has to return a carry of the type
      ([same_type]: structure, shapes and dtypes) of the one it was given. *)
From Verif Require Export Filters_Model Ensemble_Model.

Section ScanLayers.
  Variable V : Type.
  Variable asize : V -> Z -> res nat.
  Variable atake : V -> Z -> nat -> V.
  Local Notation T := (tree (gleaf V)).
  Variable same_type : T -> T -> bool.

  Definition is_array_leaf (a : gleaf V) : bool := match a with Arr _ => true | _ => false end.
  Definition element (i : nat) (xs : T) : T :=
    tmap no_leaf (fun x => match x with Leaf (Arr a) => Leaf (Arr (atake a 0%Z i)) | _ => x end) xs.
  Fixpoint scan_length (l : list T) : res nat :=
    match l with
    | [] => Err ValueError
    | Leaf (Arr a) :: l' =>
        n <- asize a 0%Z ;;
        match l' with [] => Ok n | _ => m <- scan_length l' ;; if Nat.eqb n m then Ok n else Err ValueError end
    | _ => Err TypeError
    end.
  Section Steps.
    Variable f : T -> T -> res T.
    Variable xs : T.
    Fixpoint scan_steps (is : list nat) (x : T) : res T :=
      match is with
      | [] => Ok x
      | i :: is' => x' <- f x (element i xs) ;; if same_type x x' then scan_steps is' x' else Err TypeError
      end.
  End Steps.
  Definition lax_scan (f : T -> T -> res T) (x xs : T) : res T :=
    if negb (forallb is_arr (leaves no_leaf x)) then Err TypeError else
    n <- scan_length (leaves no_leaf xs) ;; scan_steps f xs (seq 0 n) x.

  (** Lines 207-219: [__call__]; [call] is the call of a layer. *)
  Definition scan_layers (call : T -> res T) (layers x : T) : res T :=
    '(dynamic, static) <- eqx_partition no_leaf TNone layers (Leaf (SCall (fun t => match t with Leaf a => is_array_leaf a | _ => false end))) ;;
    lax_scan (fun x d => layer <- eqx_combine no_leaf [d; static] ;; call (Node tuple_kind [layer; x])) x dynamic.
End ScanLayers.
