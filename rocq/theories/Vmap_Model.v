(** Model of filter_vmap: equinox/_vmap_pmap.py lines 36-184.

    - Arrays are an arbitrary type [V] with the operations used here: size along an axis, slice
      along an axis, stacking, moving axis 0 elsewhere, conversion of Python scalars.
    - Under [jax.vmap] a function sees tracers. A traced array is either not batched or a batch:
      one array per batch element ([bat]). The user's function works on trees of those.
    - [jax.vmap] (outside /repo): batch size from the mapped inputs and [axis_size], which must
      agree; outputs with axis 0 are stacked (broadcast if not batched), outputs with axis [None]
      must not be batched.
    - Axis specifications are [None], ints, callables into [Optional[int]], or something else. The
      options [axis_name], [spmd_axis_name] are not modelled. *)
From Coq Require Export String.
From Verif Require Export Filters_Model.
Export ListNotations.
Local Open Scope nat_scope.
Local Open Scope list_scope.

Inductive gleaf (X : Type) := Arr (x : X) | Num (z : Z) | Obj (n : nat).
Arguments Arr {X}. Arguments Num {X}. Arguments Obj {X}.
Definition is_arr {X} (t : tree (gleaf X)) : bool := match t with Leaf (Arr _) => true | _ => false end.

(** Lines 32-33: leaves of an axis specification; [None] is [TNone]. *)
Inductive axis_spec (X : Type) := AInt (z : Z) | ACall (g : gleaf X -> option Z) | ABad.
Arguments AInt {X}. Arguments ACall {X}. Arguments ABad {X}.
Definition of_opt (o : option Z) : tree Z := match o with Some z => Leaf z | None => TNone end.

(** Lines 40-48. *)
Definition resolve_axis {X} (a : tree (axis_spec X)) (elem : tree (gleaf X)) : res (tree Z) :=
  match a with
  | TNone => Ok (tmap no_leaf (fun _ => TNone) elem)
  | Leaf (AInt z) => Ok (tmap no_leaf (fun _ => Leaf z) elem)
  | Leaf (ACall g) => Ok (tmap no_leaf (fun x => match x with Leaf l => of_opt (g l) | _ => TNone end) elem)
  | _ => Err ValueError
  end.
(** Lines 51-54. *)
Definition resolve_axes {X} (t : tree (gleaf X)) (a : tree (axis_spec X)) : res (tree Z) := tmap2 is_none resolve_axis a t.
(** Lines 57-76. *)
Definition if_array {X} (z : Z) : axis_spec X := ACall (fun l => match l with Arr _ => Some z | _ => None end).

(** Lines 83-113. A dictionary: distinct keys. [params]: names of the parameters of [fun]. *)
Section Named.
  Context {X : Type}.
  Inductive in_axes_arg := InTree (a : tree (axis_spec X)) | InDict (d : list (string * tree (axis_spec X))).
  Fixpoint pop (k : string) (d : list (string * tree (axis_spec X))) : option (tree (axis_spec X)) * list (string * tree (axis_spec X)) :=
    match d with
    | [] => (None, [])
    | (k', v) :: d' => if String.eqb k k' then (Some v, d') else let r := pop k d' in (fst r, (k', v) :: snd r)
    end.
  Fixpoint pops (nargs : nat) (params : list string) (d : list (string * tree (axis_spec X))) : list (tree (axis_spec X)) * list (string * tree (axis_spec X)) :=
    match nargs, params with
    | S n, p :: ps =>
        let r := pop p d in
        let s := pops n ps (snd r) in
        ((match fst r with Some v => v | None => Leaf (if_array 0) end) :: fst s, snd s)
    | _, _ => ([], d)
    end.
  Definition tuple_kind : nat := 0.
  Definition named_in_axes (params : list string) (ia : in_axes_arg) (nargs : nat) : res (tree (axis_spec X)) :=
    match ia with
    | InTree a => Ok a
    | InDict d => let r := pops nargs params d in match snd r with [] => Ok (Node tuple_kind (fst r)) | _ => Err ValueError end
    end.
End Named.
Arguments in_axes_arg : clear implicits.

Section Vmap.
  Variable V : Type.
  Variable asize : V -> Z -> res nat.
  Variable atake : V -> Z -> nat -> V.
  Variable astack : list V -> V.
  Variable amove : V -> Z -> res V.
  Variable of_num : Z -> V.

  Inductive bat := Unb (a : V) | Bat (l : list V).
  Definition emb (l : gleaf V) : gleaf bat := match l with Arr a => Arr (Unb a) | Num z => Num z | Obj n => Obj n end.
  Definition up {X Y} (f : gleaf X -> gleaf Y) (t : tree (gleaf X)) : tree (gleaf Y) := tmap no_leaf (fun x => match x with Leaf l => Leaf (f l) | _ => TNone end) t.

  Definition mask_spec {X} (ax : tree Z) : tree (spec_leaf (gleaf X)) := tmap is_none (fun x => Leaf (SBool (is_none x))) ax.

  (** *** jax.vmap *)
  Definition slice_leaf (n : nat) (z : tree Z) (x : tree (gleaf V)) : res (tree (gleaf bat)) :=
    match z, x with
    | Leaf z, Leaf (Arr a) => Ok (Leaf (Arr (Bat (map (atake a z) (seq 0 n)))))
    | TNone, x => Ok (up emb x)
    | _, _ => Err ValueError
    end.
  Definition size_leaf (z : tree Z) (x : tree (gleaf V)) : res (tree nat) :=
    match z, x with
    | Leaf z, Leaf (Arr a) => n <- asize a z ;; Ok (Leaf n)
    | TNone, x => Ok TNone
    | _, _ => Err ValueError
    end.
  Definition leaf_list {A} (t : tree A) : list A := flat_map (fun x => match x with Leaf a => [a] | _ => [] end) (leaves no_leaf t).
  Definition batch_size (axis_size : option nat) (sizes : list nat) : res nat :=
    match (match axis_size with Some n => n :: sizes | None => sizes end) with
    | [] => Err ValueError
    | n :: ns => if forallb (Nat.eqb n) ns then Ok n else Err ValueError
    end.
  Definition stack_leaf (n : nat) (x : gleaf bat) : res (gleaf V) :=
    match x with
    | Arr (Bat l) => Ok (Arr (astack l))
    | Arr (Unb a) => Ok (Arr (astack (repeat a n)))
    | Num z => Ok (Arr (astack (repeat (of_num z) n)))
    | Obj _ => Err TypeError
    end.
  Definition unb_leaf (x : gleaf bat) : res (gleaf V) :=
    match x with
    | Arr (Bat _) => Err ValueError
    | Arr (Unb a) => Ok (Arr a)
    | Num z => Ok (Num z)
    | Obj n => Ok (Obj n)
    end.
  Fixpoint upM {X Y} (f : gleaf X -> res (gleaf Y)) (t : tree (gleaf X)) : res (tree (gleaf Y)) :=
    match t with
    | Leaf l => rmap Leaf (f l)
    | TNone => Ok TNone
    | Node k cs => rmap (Node k) (mapM (upM f) cs)
    end.

  (** *** _VmapWrapper.__call__, lines 128-184 *)
  Variable fn : tree (gleaf bat) -> res (tree (gleaf bat)).
  Variable out_spec : tree (axis_spec bat).

  (** Lines 152-159. *)
  Record wrapped := { w_vmapd : tree (gleaf bat); w_arr : tree (gleaf bat); w_static : tree (gleaf bat); w_axes : tree Z }.
  Definition fun_wrapper (static_args dyn : tree (gleaf bat)) : res wrapped :=
    args <- eqx_combine no_leaf [dyn; static_args] ;;
    out <- fn args ;;
    oax <- resolve_axes out out_spec ;;
    '(nv, v) <- eqx_partition is_none TNone out (mask_spec oax) ;;
    '(nva, nvs) <- eqx_partition no_leaf TNone nv (Leaf (SCall is_arr)) ;;
    Ok {| w_vmapd := v; w_arr := nva; w_static := nvs; w_axes := oax |}.

  (** Lines 178-184; [TypeError] in place of a non-array under [moveaxis] (it never happens). *)
  Definition move_leaf (x : tree (gleaf V)) (z : tree Z) : res (tree (gleaf V)) :=
    match x, z with Leaf (Arr a), Leaf z => rmap (fun b => Leaf (Arr b)) (amove a z) | _, _ => Err TypeError end.
  Fixpoint def_eqb (a b : tree unit) : bool :=
    match a, b with
    | Leaf _, Leaf _ => true
    | TNone, TNone => true
    | Node k cs, Node k' cs' =>
        Nat.eqb k k' && ((fix go (l r : list (tree unit)) : bool := match l, r with [], [] => true | x :: l', y :: r' => def_eqb x y && go l' r' | _, _ => false end) cs cs')
    | _, _ => false
    end.
  Definition finish (v nva nvs : tree (gleaf V)) (oax : tree Z) : res (tree (gleaf V)) :=
    nv <- eqx_combine no_leaf [nva; nvs] ;;
    _ <- (if def_eqb (treedef no_leaf v) (treedef no_leaf oax) then Ok tt else Err AssertionError) ;;
    v' <- tmap2 no_leaf move_leaf v oax ;;
    eqx_combine no_leaf [v'; nv].

  Definition filter_vmap (params : list string) (ia : in_axes_arg V) (axis_size : option nat) (args : list (tree (gleaf V))) (kwargs : nat) : res (tree (gleaf V)) :=
    if 0 <? kwargs then Err RuntimeError else
    spec <- named_in_axes params ia (length args) ;;
    let argt := Node tuple_kind args in
    iax <- resolve_axes argt spec ;;
    '(sta, dyn) <- eqx_partition no_leaf TNone argt (mask_spec iax) ;;
    match leaves no_leaf iax, axis_size with
    | [], None =>
        w <- fun_wrapper (up emb sta) (up emb dyn) ;;
        match leaves no_leaf (w_vmapd w) with
        | [] => v <- upM unb_leaf (w_vmapd w) ;; nva <- upM unb_leaf (w_arr w) ;; nvs <- upM unb_leaf (w_static w) ;; finish v nva nvs (w_axes w)
        | _ => Err ValueError
        end
    | _, _ =>
        sizes <- tmap2 is_none size_leaf iax dyn ;;
        n <- batch_size axis_size (leaf_list sizes) ;;
        tdyn <- tmap2 is_none (slice_leaf n) iax dyn ;;
        w <- fun_wrapper (up emb sta) tdyn ;;
        v <- upM (stack_leaf n) (w_vmapd w) ;; nva <- upM unb_leaf (w_arr w) ;; nvs <- upM unb_leaf (w_static w) ;;
        finish v nva nvs (w_axes w)
    end.
End Vmap.
Arguments Unb {V}. Arguments Bat {V}.
