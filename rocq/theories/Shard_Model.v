(** Model of the predicates on leaves (equinox/_filters.py lines 19-58) and of [filter_shard]
    (equinox/_sharding.py lines 11-41).

    - Of an object only its type, its dtype and its method [__jax_array__] matter here. A class may
      define that method for its instances; it is then also an attribute of the class itself, where
      calling it without an instance raises.
    - dtypes: those of NumPy; the extended ones of JAX, which NumPy knows but does not count among its
      own numbers (bfloat16, the float8 and int4 types); and the dtypes of random keys.
    - [jax.lax.with_sharding_constraint] (outside /repo): the tree of shardings must be a prefix of the
      first argument, which is checked before anything else; then each array is placed ([place]),
      which may fail (e.g. when its shape does not fit). Shardings [None] do not occur. *)
From Verif Require Export Prim_Model.

Inductive dtype := DBool | DInt | DUint | DFloat | DComplex | DExtFloat | DExtInt | DKey | DOther.
(** [np.issubdtype(d, np.inexact)] and [jnp.issubdtype(d, jnp.inexact)] *)
Definition np_inexact (d : dtype) : bool := match d with DFloat | DComplex => true | _ => false end.
Definition jnp_inexact (d : dtype) : bool := match d with DFloat | DComplex | DExtFloat => true | _ => false end.

(** [float] and so on: Python scalars. [np.float64] is a subclass of [float] and [np.complex128] of
    [complex], which makes no difference below. *)
Inductive kind := KJax (d : dtype) | KNpArray (d : dtype) | KNpGeneric (d : dtype) | KBool | KInt | KFloat | KComplex | KObject.
(** [jax_array]: what calling [__jax_array__] gives, if there is that attribute. *)
Inductive obj := Obj (k : kind) (jax_array : option (res obj)).
Definition obj_kind (o : obj) : kind := let '(Obj k _) := o in k.

(** Lines 19-21. *)
Definition is_array (o : obj) : bool :=
  match obj_kind o with KJax _ | KNpArray _ | KNpGeneric _ => true | _ => false end.
(** Lines 26-32. *)
Definition is_array_like (o : obj) : bool :=
  let '(Obj k j) := o in
  match k with KObject => false | _ => true end || match j with Some _ => true | None => false end.
(** Lines 35-44. *)
Definition is_inexact_array (o : obj) : bool :=
  match obj_kind o with
  | KNpArray d | KNpGeneric d => np_inexact d
  | KJax d => jnp_inexact d
  | _ => false
  end.
(** Lines 47-58. *)
Definition is_inexact_array_like (o : obj) : res bool :=
  let '(Obj _ j) := o in
  o <- (match j with Some r => r | None => Ok o end) ;;
  Ok (match obj_kind o with
      | KNpArray d | KNpGeneric d => np_inexact d
      | KJax d => jnp_inexact d
      | KFloat | KComplex => true
      | _ => false
      end).

Section Shard.
  Context {L S D : Type}.
  Variable is_arr : L -> bool.
  (** [jax.sharding.SingleDeviceSharding] *)
  Variable single : D -> S.
  Variable place : S -> L -> res L.
  Notation T := (tree L).

  (** [with_sharding_constraint]: one sharding for each leaf, then all leaves in order. *)
  Definition flatten_axes (p : tree S) (x : T) : res (tree S) :=
    tmap2 no_leaf (fun s sub => Ok (tmap no_leaf (fun _ => s) sub)) p x.
  Definition constrain (p : tree S) (x : T) : res T :=
    ss <- flatten_axes p x ;;
    tmap2 no_leaf (fun s y => match s, y with Leaf s, Leaf a => rmap Leaf (place s a) | _, _ => Err TypeError end) ss x.

  Inductive target := ToDevice (d : D) | ToShardings (p : tree S).
  (** Lines 34-41. *)
  Definition filter_shard (x : T) (t : target) : res T :=
    let shardings := match t with ToDevice d => Leaf (single d) | ToShardings p => p end in
    '(dynamic, static) <- eqx_partition no_leaf TNone x (Leaf (SCall (on_leaf is_arr))) ;;
    dynamic <- constrain shardings dynamic ;;
    eqx_combine no_leaf [dynamic; static].
End Shard.
Arguments target : clear implicits.
