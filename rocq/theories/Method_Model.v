(** Model of the methods of [Module]s: equinox/_module.py lines 202-214 and 585-588 (wrapping),
    615-637 ([_wrap_method]) and 1031-1052 ([BoundMethod]).

    - Functions are numbers; what calling them does is arbitrary ([fun_call]).
    - A class is its own namespace and whether it was made by the metaclass of [Module]; an instance
      of a [Module] has an MRO (without [object]) and its [__dict__]. Class attributes are functions,
      wrapped functions, properties without setter, static methods, or other values that are no
      descriptors; class methods and further descriptors are left out.
    - The [__name__], [__doc__] and so on that [_module_update_wrapper] copies to a bound method are
      determined by the function; they are left out (see C57 for copying them). So is the order of
      [__dict__], which does not matter to anything here. *)
From Coq Require Export String.
From Verif Require Export Base.
Open Scope list_scope.

(** Lines 615-616. *)
Fixpoint ends_with (e s : string) : bool :=
  String.eqb e s || match s with EmptyString => false | String _ s' => ends_with e s' end.
Definition not_magic (k : string) : bool := negb (prefix "__" k && ends_with "__" k).

Section Methods.
  Context {L : Type}.

  Inductive value :=
  | VLeaf (a : L)                                    (* anything that is a leaf for JAX *)
  | VFun (f : nat)                                   (* a Python function *)
  | VMethod (f : nat) (self : value)                 (* a Python bound method *)
  | VInst (c : nat) (d : list (string * value))      (* an instance of the [Module] class [c] *)
  | VBound (f : nat) (self : value).                 (* a [BoundMethod] *)

  Inductive attr := AFun (f : nat) | AWrap (f : nat) | AProp (f : nat) | AStatic (f : nat) | AVal (v : value).
  Record class := { c_module : bool; c_ns : list (string * attr) }.

  Fixpoint get {X} (d : list (string * X)) (k : string) : option X :=
    match d with [] => None | (k', v) :: d' => if String.eqb k' k then Some v else get d' k end.
  Fixpoint put {X} (d : list (string * X)) (k : string) (v : X) : list (string * X) :=
    match d with [] => [(k, v)] | (k', w) :: d' => if String.eqb k' k then (k', v) :: d' else (k', w) :: put d' k v end.

  (** Lines 212-214 and 586-587. *)
  Definition wrap (k : string) (a : attr) : attr :=
    match a with AFun f => if not_magic k then AWrap f else a | _ => a end.
  (** A [class] statement: by the metaclass (lines 201-214), and of a class that is no [Module]. *)
  Definition new_module_class (ns : list (string * attr)) : class :=
    {| c_module := true; c_ns := map (fun '(k, a) => (k, wrap k a)) ns |}.
  Definition new_plain_class (ns : list (string * attr)) : class := {| c_module := false; c_ns := ns |}.
  (** [cls.k = a], lines 585-588. *)
  Definition class_setattr (c : class) (k : string) (a : attr) : class :=
    {| c_module := c_module c; c_ns := put (c_ns c) k (if c_module c then wrap k a else a) |}.

  (** The MRO of each [Module] class, and its static fields. *)
  Variable mro : nat -> list class.
  Variable is_static : nat -> string -> bool.
  Variable fun_call : nat -> list value -> list (string * value) -> res value.

  Fixpoint lookup (l : list class) (k : string) : option attr :=
    match l with
    | [] => None
    | c :: l' => match get (c_ns c) k with Some a => Some a | None => lookup l' k end
    end.

  (** [a.__get__(m, type(m))], for what is no data descriptor; lines 625-637 for [AWrap]. *)
  Definition bind_attr (a : attr) (m : value) : res value :=
    match a with
    | AFun f => Ok (VMethod f m)
    | AWrap f => Ok (VBound f m)
    | AProp f => fun_call f [m] []
    | AStatic f => Ok (VFun f)
    | AVal v => Ok v
    end.
  (** [getattr(m, k)] of an instance: [object.__getattribute__]. *)
  Definition getattr (c : nat) (d : list (string * value)) (k : string) : res value :=
    match lookup (mro c) k with
    | Some (AProp f) => fun_call f [VInst c d] []
    | Some a => match get d k with Some v => Ok v | None => bind_attr a (VInst c d) end
    | None => match get d k with Some v => Ok v | None => Err AttributeError end
    end.
  (** [getattr(cls, k)]; for a wrapped function line 628. A property is returned itself: not modelled. *)
  Definition class_getattr (c : nat) (k : string) : res value :=
    match lookup (mro c) k with
    | Some (AFun f) | Some (AWrap f) | Some (AStatic f) => Ok (VFun f)
    | Some (AVal v) => Ok v
    | Some (AProp _) => Err (OtherError 7)
    | None => Err AttributeError
    end.

  Definition has_key (k : string) (kw : list (string * value)) : bool := existsb (fun p => String.eqb (fst p) k) kw.
  (** [v( *args, **kw )]. For a [BoundMethod] lines 1041-1043, whose parameter [self] clashes with a
      keyword of that name. An instance is called by the [__call__] of its class. *)
  Definition call (v : value) (args : list value) (kw : list (string * value)) : res value :=
    match v with
    | VLeaf _ => Err TypeError
    | VFun f => fun_call f args kw
    | VMethod f m => fun_call f (m :: args) kw
    | VBound f m => if has_key "self" kw then Err TypeError else fun_call f (m :: args) kw
    | VInst c d =>
        match lookup (mro c) "__call__" with
        | Some (AFun f) => fun_call f (v :: args) kw
        | Some (AStatic f) => fun_call f args kw
        | Some (AWrap f) => if has_key "self" kw then Err TypeError else fun_call f (v :: args) kw
        | _ => Err TypeError
        end
    end.

  (** As pytrees: the children of an instance are its fields that are not static; the child of a
      [BoundMethod] is [__self__], the function is static (lines 1038-1039). *)
  Fixpoint vleaves (v : value) : list value :=
    match v with
    | VInst c d => concat (map (fun '(k, w) => if is_static c k then [] else vleaves w) d)
    | VBound _ m => vleaves m
    | _ => [v]
    end.
  Fixpoint vmap (g : value -> value) (v : value) : value :=
    match v with
    | VInst c d => VInst c (map (fun '(k, w) => (k, if is_static c k then w else vmap g w)) d)
    | VBound f m => VBound f (vmap g m)
    | _ => g v
    end.
End Methods.
Arguments value : clear implicits.
Arguments attr : clear implicits.
Arguments class : clear implicits.
