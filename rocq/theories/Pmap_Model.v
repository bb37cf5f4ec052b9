(** Model of filter_pmap: equinox/_vmap_pmap.py lines 364-503.

    - Arrays, axis specifications and traced values are those of Vmap_Model.v: on several devices a value is either the same on all of them
      ([Unb]) or one array per device ([Bat]). [rank] is the number of dimensions of a traced array.
    - [jax.pmap] (outside /repo): sizes of the mapped axes and [axis_size] must agree; an axis given for a leaf that is not there (because it is
      not an array) is ignored; outputs with an axis are stacked along it; of an output with axis [None] one device's value is returned,
      without a check that they are equal ([pick], left open). There are enough devices.
    - The function itself is fixed, so that arrays in it are the same on all devices (lines 467-471). The cache of compiled functions (lines 363,
      475-483) is that of [filter_jit]; [lower] (lines 486-491) and donation (lines 493-499) are left out.
    - [hashable_partition] followed by [hashable_combine] is modelled as [partition] and [combine]. *)
From Verif Require Export Vmap_Model.
Local Open Scope nat_scope.
Local Open Scope list_scope.

Section Pmap.
  Variable V : Type.
  Variable asize : V -> Z -> res nat.
  Variable atake : V -> Z -> nat -> V.
  Variable astack : list V -> V.
  Variable amove : V -> Z -> res V.
  Variable of_num : Z -> V.
  Variable rank : bat V -> nat.
  Variable pick : list V -> res V.

  (** *** jax.pmap: inputs *)
  Definition pslice_leaf (n : nat) (z : tree Z) (x : tree (gleaf V)) : res (tree (gleaf (bat V))) :=
    match z, x with
    | _, TNone => Ok TNone
    | Leaf z, Leaf (Arr a) => Ok (Leaf (Arr (Bat (map (atake a z) (seq 0 n)))))
    | TNone, x => Ok (up (emb V) x)
    | _, _ => Err ValueError
    end.
  Definition psize_leaf (z : tree Z) (x : tree (gleaf V)) : res (tree nat) :=
    match z, x with
    | _, TNone => Ok TNone
    | Leaf z, Leaf (Arr a) => n <- asize a z ;; Ok (Leaf n)
    | TNone, Leaf _ => Ok TNone
    | _, _ => Err ValueError
    end.
  (** *** and outputs *)
  Definition stack_at (n : nat) (i : Z) (x : gleaf (bat V)) : res (gleaf V) :=
    y <- stack_leaf V astack of_num n x ;;
    match y with Arr a => rmap Arr (amove a i) | _ => Err TypeError end.
  Definition one_leaf (x : gleaf (bat V)) : res (gleaf V) :=
    match x with
    | Arr (Bat l) => rmap Arr (pick l)
    | Arr (Unb a) => Ok (Arr a)
    | Num z => Ok (Num z)
    | Obj n => Ok (Obj n)
    end.

  Variable fn : tree (gleaf (bat V)) -> res (tree (gleaf (bat V))).
  Variable out_spec : tree (axis_spec (bat V)).

  (** Lines 367-376: the largest number of dimensions of an output of the mapped function; Python scalars become arrays. *)
  Definition out_rank (x : gleaf (bat V)) : nat := match x with Arr b => S (rank b) | Num _ => 1 | Obj _ => 0 end.
  Definition max_out_size (out : tree (gleaf (bat V))) : nat := fold_right Nat.max 0 (map out_rank (leaf_list out)).
  (** Lines 379-389. *)
  Definition check_out_axis (m : nat) (z : Z) : bool := negb ((z <? - Z.of_nat m) || (Z.of_nat m <=? z))%Z.
  (** [range(-m, m)] *)
  Definition axes_range (m : nat) : list Z := map (fun i => (Z.of_nat i - Z.of_nat m)%Z) (seq 0 (m + m)).
  (** Lines 397-398 and 400. *)
  Definition axis_mask {X} (c : tree Z -> bool) (ax : tree Z) : tree (spec_leaf (gleaf X)) := tmap is_none (fun x => Leaf (SBool (c x))) ax.
  Definition is_axis (i : Z) (x : tree Z) : bool := match x with Leaf z => (z =? i)%Z | _ => false end.
  (** Lines 391-403, and what [jax.pmap] does to the outputs, lines 409-418; lines 442-445. *)
  Definition outputs (n m : nat) (out : tree (gleaf (bat V))) : res (tree (gleaf V)) :=
    oax <- resolve_axes out out_spec ;;
    if negb (forallb (check_out_axis m) (leaf_list oax)) then Err ValueError else
    pmapd <- mapM (fun i => f <- eqx_filter is_none TNone false out (axis_mask (is_axis i) oax) ;; upM (stack_at n i) f) (axes_range m) ;;
    nonpmapd <- eqx_filter is_none TNone false out (axis_mask is_none oax) ;;
    '(dynamic, static) <- eqx_partition no_leaf TNone nonpmapd (Leaf (SCall is_arr)) ;;
    dynamic <- upM one_leaf dynamic ;;
    static <- upM one_leaf static ;;
    nonpmapd <- eqx_combine no_leaf [dynamic; static] ;;
    eqx_combine no_leaf (pmapd ++ [nonpmapd]).

  (** Lines 421-431 and 461-500. The function is traced twice, for shapes (line 374) and for the result; it is pure. *)
  Definition filter_pmap (params : list string) (ia : in_axes_arg V) (axis_size : option nat) (args : list (tree (gleaf V))) (kwargs : nat) : res (tree (gleaf V)) :=
    if 0 <? kwargs then Err RuntimeError else
    spec <- named_in_axes params ia (length args) ;;
    let argt := Node tuple_kind args in
    iax <- resolve_axes argt spec ;;
    '(dyn, sta) <- eqx_partition no_leaf TNone argt (Leaf (SCall is_arr)) ;;
    sizes <- tmap2 is_none psize_leaf iax dyn ;;
    n <- batch_size axis_size (leaf_list sizes) ;;
    tdyn <- tmap2 is_none (pslice_leaf n) iax dyn ;;
    targs <- eqx_combine no_leaf [tdyn; up (emb V) sta] ;;
    struct_out <- fn targs ;;
    let m := max_out_size struct_out in
    out <- fn targs ;;
    outputs n m out.
End Pmap.
