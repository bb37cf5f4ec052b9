(** Model of the metaclass [ContainerMeta]: equinox/internal/_misc.py lines 14-43.

    - The namespace of a class body is a list of names and values without repetition, in order of first assignment; [V] is the type of values.
    - A class is the list of the namespaces along its MRO that were made by [ContainerMeta]; [object] has no name of interest.
    - Arrays are given by their shape and by whether their dtype is an integer dtype (booleans are not). *)
From Verif Require Export Method_Model.
Local Open Scope list_scope.

Section Container.
  Context {V : Type}.
  Inductive entry := Keep (v : V) | Index (i : nat) | Reverse (l : list V).
  Definition namespace : Type := list (string * entry).

  (** Lines 23-29: [_dict] and [reverse_lookup], from item number [i] on. *)
  Fixpoint number (d : list (string * V)) (i : nat) : namespace * list V :=
    match d with
    | [] => ([], [])
    | (key, value) :: d' =>
        if prefix "__" key && ends_with "__" key then let '(n, l) := number d' i in ((key, Keep value) :: n, l)
        else let '(n, l) := number d' (S i) in ((key, Index i) :: n, value :: l)
    end.
  (** Lines 18-31. *)
  Definition new_class (d : list (string * V)) : res namespace :=
    if existsb (fun kv => String.eqb (fst kv) "reverse_lookup") d then Err AssertionError
    else let '(n, l) := number d 0 in Ok (n ++ [("reverse_lookup"%string, Reverse l)]).

  (** [cls.key] *)
  Fixpoint ns_get (n : namespace) (key : string) : option entry :=
    match n with [] => None | (k, e) :: n' => if String.eqb k key then Some e else ns_get n' key end.
  Fixpoint class_attr (mro : list namespace) (key : string) : res entry :=
    match mro with
    | [] => Err AttributeError
    | n :: mro' => match ns_get n key with Some e => Ok e | None => class_attr mro' key end
    end.
  Definition reverse_lookup (mro : list namespace) : res (list V) :=
    e <- class_attr mro "reverse_lookup" ;; match e with Reverse l => Ok l | _ => Err TypeError end.
  (** Indexing a Python list. *)
  Definition list_index (l : list V) (i : Z) : res V :=
    let j := if (i <? 0)%Z then (i + Z.of_nat (List.length l))%Z else i in
    if (j <? 0)%Z then Err IndexError
    else match nth_error l (Z.to_nat j) with Some v => Ok v | None => Err IndexError end.
  (** [cls[item]] and [len(cls)], lines 39-43. *)
  Definition class_item (mro : list namespace) (item : Z) : res V := l <- reverse_lookup mro ;; list_index l item.
  Definition class_len (mro : list namespace) : res nat := rmap (@List.length V) (reverse_lookup mro).
End Container.
Arguments entry : clear implicits.
Arguments namespace : clear implicits.

(** [isinstance(instance, cls)], lines 33-37. Booleans are instances of [int]; [proper]: is the object an instance in the ordinary sense? *)
Inductive object := Array (shape : list nat) (integer : bool) | PyInt (i : Z) | PyBool (b : bool) | Other (proper : bool).
Definition instancecheck (o : object) : bool :=
  match o with
  | Array shape integer => match shape with [] => integer | _ => false end
  | PyInt _ | PyBool _ => true
  | Other proper => proper
  end.
