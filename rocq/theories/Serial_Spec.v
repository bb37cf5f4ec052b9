(** What serialisation promises, independently of how it is done. *)
From Verif Require Export Serial_Model.

Definition leafy (isl : obj -> bool) (t : obj) : bool := isl t || match t with Leaf _ => true | _ => false end.

(** Three trees side by side: the saved one, [like], the result; [R] relates their leaves. *)
Inductive side_by_side (isl : obj -> bool) (R : obj -> obj -> obj -> Prop) : obj -> obj -> obj -> Prop :=
| SS_leaf t l o : leafy isl t = true -> leafy isl l = true -> leafy isl o = true -> R t l o -> side_by_side isl R t l o
| SS_none : isl TNone = false -> side_by_side isl R TNone TNone TNone
| SS_node k ts ls os : isl (Node k ts) = false -> isl (Node k ls) = false -> isl (Node k os) = false ->
    side_list isl R ts ls os -> side_by_side isl R (Node k ts) (Node k ls) (Node k os)
with side_list (isl : obj -> bool) (R : obj -> obj -> obj -> Prop) : list obj -> list obj -> list obj -> Prop :=
| SL_nil : side_list isl R [] [] []
| SL_cons t l o ts ls os : side_by_side isl R t l o -> side_list isl R ts ls os -> side_list isl R (t :: ts) (l :: ls) (o :: os).
Scheme side_mut := Induction for side_by_side Sort Prop
with side_list_mut := Induction for side_list Sort Prop.

(** dtypes that NumPy stores faithfully, and the ones JAX arrays can be stored with. *)
Definition np_storable (d : dty) : Prop := ~ In d [DBF16; DF8; DV1; DV2; DObj; DKey].
Definition jax_storable (x64 : bool) (d : dty) : Prop := 
  (np_storable d \/ d = DBF16) /\ (x64 = false -> ~ In d [DI64; DU64; DF64; DC128]).
Definition int_fits (k : pykind) (v : Z) : Prop := match k with KInt => (- 2 ^ 63 <= v < 2 ^ 64)%Z | _ => True end.
Definition array_like (x : obj) : bool :=
  match x with Leaf (JArr _) | Leaf (NArr _) | Leaf (NGen _ _) | Leaf (Py _ _) => true | _ => false end.
Definition is_sds (x : obj) : bool := match x with Leaf (SDS _ _) => true | _ => false end.

(** The expected outcome at a leaf: the saved leaf if it is array-like, [like]'s otherwise. *)
Inductive expected (x64 : bool) : obj -> obj -> obj -> Prop :=
| X_jax a b : sh b = sh a -> dt b = dt a -> jax_storable x64 (dt a) -> expected x64 (Leaf (JArr a)) (Leaf (JArr b)) (Leaf (JArr a))
| X_sds a : jax_storable x64 (dt a) -> expected x64 (Leaf (JArr a)) (Leaf (SDS (sh a) (dt a))) (Leaf (JArr a))
| X_np a b : sh b = sh a -> dt b = dt a -> np_storable (dt a) -> expected x64 (Leaf (NArr a)) (Leaf (NArr b)) (Leaf (NArr a))
| X_gen d v w : np_storable d \/ d = DBF16 -> expected x64 (Leaf (NGen d v)) (Leaf (NGen d w)) (Leaf (NGen d v))
| X_py k v w : int_fits k v -> expected x64 (Leaf (Py k v)) (Leaf (Py k w)) (Leaf (Py k v))
| X_other t l : array_like t = false -> array_like l = false -> is_sds l = false -> expected x64 t l l.

(** Agreement of a result with [like]. *)
Definition same_type (new old : obj) : Prop := type_of new = match type_of old with TySDS => TyJ | t => t end.
Inductive agrees (isl : obj -> bool) : obj -> obj -> Prop :=
| A_leaf o l : leafy isl o = true -> same_type o l -> (is_nd o = true -> shape_of o = shape_of l) -> agrees isl o l
| A_none : agrees isl TNone TNone
| A_node k os ls : Forall2 (agrees isl) os ls -> agrees isl (Node k os) (Node k ls).
(** Same structure, up to what [is_leaf] calls leaves. *)
Inductive same_structure (isl : obj -> bool) : obj -> obj -> Prop :=
| T_leaf l o : leafy isl l = true -> same_structure isl l o
| T_none : same_structure isl TNone TNone
| T_node k ls os : Forall2 (same_structure isl) ls os -> same_structure isl (Node k ls) (Node k os).

(** ** Specifications of the user *)
(** [h] writes [t] so that [g] reads back [o], in any stream; [o] has the type, shape and dtype of [l]. *)
Definition restores (h : ser) (g : des) (t l o : obj) : Prop :=
  (exists rs, h t = Ok rs /\ forall rest, g (rs ++ rest) l = Ok (o, rest)) /\ same_type o l /\ (is_nd o = true -> shape_of o = shape_of l).
(** A tree of pairs of functions and three trees of objects: each pair restores the leaves under it. *)
Inductive specs_trip (isl : obj -> bool) : tree ser -> tree des -> obj -> obj -> obj -> Prop :=
| ST_leaf h g t l o : side_by_side isl (restores h g) t l o -> specs_trip isl (Leaf h) (Leaf g) t l o
| ST_none : isl TNone = false -> specs_trip isl TNone TNone TNone TNone TNone
| ST_node k hs gs ts ls os : isl (Node k os) = false -> specs_list isl hs gs ts ls os ->
    specs_trip isl (Node k hs) (Node k gs) (Node k ts) (Node k ls) (Node k os)
with specs_list (isl : obj -> bool) : list (tree ser) -> list (tree des) -> list obj -> list obj -> list obj -> Prop :=
| SPL_nil : specs_list isl [] [] [] [] []
| SPL_cons h g t l o hs gs ts ls os : specs_trip isl h g t l o -> specs_list isl hs gs ts ls os ->
    specs_list isl (h :: hs) (g :: gs) (t :: ts) (l :: ls) (o :: os).
Scheme specs_mut := Induction for specs_trip Sort Prop
with specs_list_mut := Induction for specs_list Sort Prop.

