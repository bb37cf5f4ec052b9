(** Model of pretty-printing: equinox/_pretty_print.py lines 10-65 ([_Partial], [tree_pformat]).

    - An object is an array, a ShapeDtypeStruct, a function wrapped by [jax.custom_jvp] or [jax.custom_vjp], a [jax.tree_util.Partial], an object that
      prints its children (container, dataclass: each child has a label, and a flag for [repr=True]), or anything else, with a type name and its text.
    - A document is what the external library [wadler_lindig] (wl) lays out; layout ([width], [indent]) is not modelled.
    - [wl.pdoc(obj, custom=..., short_arrays=...)] calls [custom] at every object before its own rules, which are [own_doc]; by default [custom]
      returns [None] and [short_arrays] is true. [wl.array_summary] is the document [DArray].
    - The contents of arrays are of an arbitrary type, with a text; [describe] gives the text of all objects that wl has no rule for. *)
From Verif Require Export Base.
From Coq Require Export String.
Local Open Scope list_scope.

Section Pretty.
  Variable A : Type.
  Variable text_of : A -> string.

  Inductive obj :=
  | OArray (jax : bool) (shape : list nat) (dtype : string) (weak : bool) (contents : A)
  | OStruct (shape : list nat) (dtype : string) (weak : bool)
  | OCustom (name : string) (wrapped : obj)
  | OPartial (func args keywords : obj)
  | ONode (name : string) (labels : list (bool * string)) (children : list obj)
  | OOther (name : string) (text : string).
  Definition type_name (o : obj) : string :=
    match o with
    | OArray true _ _ _ _ => "ArrayImpl"
    | OArray false _ _ _ _ => "ndarray"
    | OStruct _ _ _ => "ShapeDtypeStruct"
    | OCustom n _ => n
    | OPartial _ _ _ => "Partial"
    | ONode n _ _ => n
    | OOther n _ => n
    end%string.

  Inductive doc :=
  | DText (s : string)
  | DArray (shape : list nat) (dtype : string) (kind : option string)
  | DNode (name : string) (fields : list (string * doc)).

  (** Children with [repr=True]. *)
  Fixpoint fields_of (ls : list (bool * string)) (ds : list doc) : list (string * doc) :=
    match ls, ds with (s, l) :: ls, d :: ds => if s then (l, d) :: fields_of ls ds else fields_of ls ds | _, _ => [] end.

  (** wl: the rules for each kind of object, applied if [custom] returns [None]. *)
  Fixpoint pdoc (short : bool) (custom : obj -> option doc) (o : obj) : doc :=
    match custom o with
    | Some d => d
    | None =>
        match o with
        | OArray jax sh dt _ c =>
            if short then DArray sh dt (Some (if jax then "jax" else "numpy")%string) else DText (text_of c)
        | OStruct sh dt _ => DNode "ShapeDtypeStruct" [("shape"%string, DArray sh dt None)]
        | OCustom n _ => DText n
        | OPartial f a k => DNode "partial" [("func", pdoc short custom f); ("args", pdoc short custom a); ("keywords", pdoc short custom k)]%string
        | ONode n ls cs => DNode n (fields_of ls (map (pdoc short custom) cs))
        | OOther _ s => DText s
        end
    end.
  Definition wl_pdoc : obj -> doc := pdoc true (fun _ => None).

  Variable short_arrays struct_as_array : bool.
  Variable truncate_leaf : obj -> bool.

  Definition weakened (dt : string) (weak : bool) : string := if weak then append "weak_" dt else dt.
  (** Lines 42-61. *)
  Definition custom (o : obj) : option doc :=
    if truncate_leaf o then Some (DText (append (type_name o) "(...)"))
    else
      match (if short_arrays then match o with OArray true sh dt w _ => Some (DArray sh (weakened dt w) None)
                                             | OStruct sh dt w => if struct_as_array then Some (DArray sh (weakened dt w) None) else None
                                             | _ => None end
             else None) with
      | Some d => Some d
      | None =>
          match o with
          | OCustom _ f => Some (wl_pdoc f)
          | OPartial f a k => Some (wl_pdoc (ONode "Partial" [(true, "func"); (true, "args"); (true, "keywords")]%string [f; a; k]))
          | _ => None
          end
      end.
  (** Lines 63-65, without the layout. *)
  Definition tree_pdoc (o : obj) : doc := pdoc short_arrays custom o.
End Pretty.
Arguments OStruct {A}. Arguments OOther {A}.
Arguments OArray {A}. Arguments OCustom {A}. Arguments OPartial {A}. Arguments ONode {A}. Arguments type_name {A}.
