(** Model of the choice of the kind of a scan and of its length: equinox/internal/_loop/loop.py lines 178-236 ([scan]), for [xs] with any number of
    leaves.

    - [xs] are the leaves of the PyTree scanned over: a scalar, or its rows along the first axis. What [f] gets in one step is one row of each leaf.
    - [jax.lax.scan] is an arbitrary function of [xs] and [length].
    - The loop itself, without extra [buffers], is [scan_checkpointed] of Loop_Model. The rows of several outputs are written as one row. *)
From Verif Require Export Loop_Model.
Local Open Scope nat_scope.

Section ScanKind.
  Context {Cr X Y : Type}.
  Variable f : Cr -> list X -> Cr * Y.
  Variable dx : X.          (* value of an out-of-bounds read; never used *)

  Inductive scanned := Scalar (x : X) | Rows (r : list X).

  (** Line 183: [jnp.shape(x)[0]]. *)
  Definition first_dim (x : scanned) : res nat :=
    match x with Scalar _ => Err IndexError | Rows r => Ok (length r) end.
  (** Lines 183-189. *)
  Definition scan_lengths (xs : list scanned) (length_arg : option nat) : res nat :=
    ls <- mapM first_dim xs ;;
    let lengths := nodup Nat.eq_dec (match length_arg with None => ls | Some l => l :: ls end) in
    match lengths with
    | [l] => Ok l
    | _ => Err ValueError
    end.
  (** Line 200. *)
  Definition row (xs : list scanned) (i : nat) : list X :=
    map (fun z => match z with Scalar x => x | Rows r => nth i r dx end) xs.

  Variable lax_scan : list scanned -> option nat -> res (option (Cr * list Y)).

  (** Lines 180-181, 192-193, 228-236. *)
  Definition scan (kind : loop_kind) (fuel : nat) (xs : list scanned) (length_arg : option nat) (ck : scan_ckpt) (init : Cr) (empty : nat -> list Y)
      : res (option (Cr * list Y)) :=
    match kind with
    | KLax => lax_scan xs length_arg
    | _ =>
        l <- scan_lengths xs length_arg ;;
        scan_checkpointed f (map (row xs) (seq 0 l)) [] fuel (Some l) ck init (empty l)
    end.
End ScanKind.
Arguments Scalar {X}. Arguments Rows {X}.
