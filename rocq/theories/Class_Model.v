(** Model of class creation: abstract attributes (equinox/_better_abstract.py lines 137-255) and
    strict Modules (equinox/_module.py lines 236-252, 350-482, 601-652).

    - Classes live in a registry and are numbered in the order of creation; 0 is [object] and 1
      is [equinox.Module] (whose own methods are all magic, and are left out).
    - An annotation is one of the six forms that [_process_annotation] distinguishes. A class
      attribute is a function or something else (property, class method, value), and may carry
      [__isabstractmethod__]. What [dataclass] adds to the class dictionary is magic and left out;
      fields without default given as [x: T = field(...)], which it removes from there, do not occur.
    - The metaclass of non-Modules is [type]: they have no abstract methods.
    - Reading class attributes ignores the metaclass. [InitVar] and [KW_ONLY] do not occur. *)
From Verif Require Export Base.

Definition name := nat.

Section Assoc.
  Context {V : Type}.
  Fixpoint aget (d : list (name * V)) (n : name) : option V :=
    match d with
    | [] => None
    | (m, v) :: d' => if Nat.eqb m n then Some v else aget d' n
    end.
End Assoc.
Definition mem (n : nat) (l : list nat) : bool := existsb (Nat.eqb n) l.
(** Sets of names, as lists. *)
Definition discard (n : name) (l : list name) : list name := List.filter (fun m => negb (Nat.eqb m n)) l.
Definition add (n : name) (l : list name) : list name := if mem n l then l else l ++ [n].

Inductive ann :=
| AbsVar          (* AbstractVar[...] *)
| AbsClassVar     (* AbstractClassVar[...] *)
| ClsVar          (* ClassVar[...], or a string starting with it *)
| Plain           (* anything else *)
| BareAbs         (* unsubscripted AbstractVar or AbstractClassVar *)
| StrAbs.         (* a string starting with "AbstractVar[" or "AbstractClassVar[" *)

(** [_process_annotation], _better_abstract.py lines 137-170: (is_abstract, is_class). *)
Definition process_annotation (a : ann) : res (bool * bool) :=
  match a with
  | AbsVar => Ok (true, false)
  | AbsClassVar => Ok (true, true)
  | ClsVar => Ok (false, true)
  | Plain => Ok (false, false)
  | BareAbs => Err TypeError
  | StrAbs => Err NotImplementedError
  end.

Inductive attr := Fun (abstract : bool) | Other (abstract : bool).
Definition attr_abstract (a : attr) : bool := match a with Fun b | Other b => b end.
Definition is_function (a : attr) : bool := match a with Fun _ => true | Other _ => false end.

(** [StrictConfig], _module.py lines 138-153. *)
Record config := { force_abstract : bool; allow_abstract_name : bool; allow_method_override : bool }.
Definition default_config : config :=
  {| force_abstract := false; allow_abstract_name := false; allow_method_override := false |}.

(** What the author of a class writes. [d_strict = None]: [strict=False]. *)
Record cdef := {
  d_abstract_name : bool;              (* the name starts with "Abstract" or "_Abstract" *)
  d_bases : list nat;
  d_ann : list (name * ann);
  d_dict : list (name * attr);
  d_has_init : bool;                   (* defines __init__ *)
  d_strict : option config }.

(** Modules, the classes of [_is_special_form] (lines 601-612), and the rest. *)
Inductive kind := KModule | KSpecial | KOther.
Record cls := {
  c_kind : kind;
  c_def : cdef;
  c_mro : list nat;
  c_abstractmethods : list name; c_absvars : list name; c_absclassvars : list name;
  c_dcfields : list (name * bool);     (* __dataclass_fields__; false: a pseudo-field, from ClassVar *)
  c_force : bool; c_strict : bool;
  c_dc_init : bool }.                  (* _has_dataclass_init; for others: __init__ is object's *)

Definition registry := list cls.
Definition nil_def : cdef :=
  {| d_abstract_name := false; d_bases := []; d_ann := []; d_dict := []; d_has_init := false; d_strict := None |}.
Definition object_cls : cls :=
  {| c_kind := KOther; c_def := nil_def; c_mro := [0]; c_abstractmethods := []; c_absvars := []; c_absclassvars := [];
     c_dcfields := []; c_force := false; c_strict := false; c_dc_init := true |}.
Definition module_id : nat := 1.
Definition module_cls : cls :=
  {| c_kind := KModule; c_def := nil_def; c_mro := [1; 0]; c_abstractmethods := []; c_absvars := []; c_absclassvars := [];
     c_dcfields := []; c_force := false; c_strict := false; c_dc_init := true |}.
Definition start : registry := [object_cls; module_cls].

(** Python's C3 linearisation. *)
Definition head_ok (x : nat) (seqs : list (list nat)) : bool :=
  forallb (fun s => negb (mem x (tl s))) seqs.
Fixpoint find_head (cands seqs : list (list nat)) : option nat :=
  match cands with
  | [] => None
  | [] :: cs => find_head cs seqs
  | (x :: _) :: cs => if head_ok x seqs then Some x else find_head cs seqs
  end.
Definition drop_head (x : nat) (s : list nat) : list nat :=
  match s with y :: s' => if Nat.eqb x y then s' else s | [] => [] end.
Definition all_nil (seqs : list (list nat)) : bool :=
  forallb (fun s => match s with [] => true | _ => false end) seqs.
Fixpoint c3_merge (fuel : nat) (seqs : list (list nat)) : res (list nat) :=
  if all_nil seqs then Ok [] else
  match fuel with
  | O => Err RuntimeError
  | S fuel' =>
      match find_head seqs seqs with
      | None => Err TypeError
      | Some x => rmap (cons x) (c3_merge fuel' (map (drop_head x) seqs))
      end
  end.
Definition mro_of (reg : registry) (b : nat) : list nat :=
  match nth_error reg b with Some c => c_mro c | None => [] end.
Definition total (seqs : list (list nat)) : nat := fold_right (fun s n => length s + n) 0 seqs.
Definition c3 (reg : registry) (self : nat) (bases : list nat) : res (list nat) :=
  let seqs := map (mro_of reg) bases ++ [bases] in
  rmap (cons self) (c3_merge (total seqs) seqs).

(** The definitions of the classes along an MRO. *)
Definition defs_along (reg : registry) (mro : list nat) : list cdef :=
  flat_map (fun b => match nth_error reg b with Some c => [c_def c] | None => [] end) mro.
(** [getattr(cls, n, None)] *)
Fixpoint resolve (ds : list cdef) (n : name) : option attr :=
  match ds with
  | [] => None
  | d :: ds' => match aget (d_dict d) n with Some a => Some a | None => resolve ds' n end
  end.

(** _better_abstract.py lines 189-211, for one class. *)
Fixpoint scan_ann (dict : list (name * attr)) (anns : list (name * ann)) (av acv : list name)
    : res (list name * list name) :=
  match anns with
  | [] => Ok (av, acv)
  | (n, a) :: anns' =>
      '(is_abstract, is_class) <- process_annotation a ;;
      if is_abstract : bool then
        if (is_class : bool) then
          match aget dict n with
          | Some _ => Err TypeError
          | None => scan_ann dict anns' (discard n av) (add n acv)
          end
        else
          match aget dict n with
          | Some _ => Err TypeError
          | None => scan_ann dict anns' (if mem n acv then av else add n av) acv
          end
      else
        scan_ann dict anns' (discard n av) (if (is_class : bool) then discard n acv else acv)
  end.
(** Lines 212-214. *)
Fixpoint discard_all (ns : list name) (l : list name) : list name :=
  match ns with [] => l | n :: ns' => discard_all ns' (discard n l) end.
Definition scan_class (d : cdef) (av acv : list name) : res (list name * list name) :=
  '(av, acv) <- scan_ann (d_dict d) (d_ann d) av acv ;;
  Ok (discard_all (map fst (d_dict d)) av, discard_all (map fst (d_dict d)) acv).
(** Line 187: [for kls in reversed(cls.__mro__)]. *)
Fixpoint scan_mro (ds : list cdef) : res (list name * list name) :=
  match ds with
  | [] => Ok ([], [])
  | d :: ds' => '(av, acv) <- scan_mro ds' ;; scan_class d av acv
  end.

(** [abc.ABCMeta.__new__]: the names of abstract methods. *)
Definition abstract_methods (reg : registry) (d : cdef) (ds : list cdef) : list name :=
  map fst (List.filter (fun na => attr_abstract (snd na)) (d_dict d)) ++
  flat_map (fun b => match nth_error reg b with
                     | None => []
                     | Some c => List.filter (fun n => match resolve ds n with Some a => attr_abstract a | None => false end)
                                   (c_abstractmethods c)
                     end) (d_bases d).

(** [dataclasses._process_class]: the bases' [__dataclass_fields__] from the far end of the MRO, then
    the class's own annotations; later entries replace earlier ones of the same name. Abstract
    annotations are hidden from [dataclass] (_better_abstract.py lines 246-250). *)
Fixpoint set_field (n : name) (b : bool) (fs : list (name * bool)) : list (name * bool) :=
  match fs with
  | [] => [(n, b)]
  | (m, c) :: fs' => if Nat.eqb m n then (n, b) :: fs' else (m, c) :: set_field n b fs'
  end.
Fixpoint own_fields (anns : list (name * ann)) (fs : list (name * bool)) : list (name * bool) :=
  match anns with
  | [] => fs
  | (n, Plain) :: anns' => own_fields anns' (set_field n true fs)
  | (n, ClsVar) :: anns' => own_fields anns' (set_field n false fs)
  | _ :: anns' => own_fields anns' fs
  end.
Definition inherited_fields (reg : registry) (mro : list nat) : list (name * bool) :=
  fold_left (fun fs b => match nth_error reg b with
                         | Some c => fold_left (fun fs nb => set_field (fst nb) (snd nb) fs) (c_dcfields c) fs
                         | None => fs end) (rev mro) [].
(** [dataclasses.fields] *)
Definition c_fields (c : cls) : list name := map fst (List.filter snd (c_dcfields c)).

(** Lines 236-252. [mro] is without the class itself and [object]. *)
Fixpoint find_dc_init (reg : registry) (mro : list nat) : res bool :=
  match mro with
  | [] => Err AssertionError
  | b :: mro' =>
      match nth_error reg b with
      | None => Err RuntimeError
      | Some c => match c_kind c with
                  | KModule => Ok (c_dc_init c)
                  | _ => if c_dc_init c then find_dc_init reg mro' else Ok false
                  end
      end
  end.

(** [_is_abstract], lines 646-652. *)
Definition is_abstract (c : cls) : bool :=
  c_force c || negb (Nat.eqb (length (c_abstractmethods c)) 0)
  || negb (Nat.eqb (length (c_absvars c)) 0) || negb (Nat.eqb (length (c_absclassvars c)) 0).

Section Strict.
  (** [not _not_magic(n)], lines 615-616. *)
  Variable magic : name -> bool.

  (** Lines 353-414, for one base. *)
  Definition check_base (reg : registry) (c : cls) (b : nat) : res unit :=
    if Nat.eqb b module_id then Ok tt else
    match nth_error reg b with
    | None => Err RuntimeError
    | Some base =>
        match c_kind base with
        | KSpecial => Ok tt
        | KOther => Err TypeError
        | KModule =>
            if negb (c_strict base) then Err TypeError else
            if negb (is_abstract base) then Err TypeError else
            if negb (Nat.eqb (length (c_fields base)) 0) || negb (c_dc_init base) then
              if negb (Nat.eqb (length (c_fields c)) (length (c_fields base))) then Err TypeError else
              if d_has_init (c_def c) then Err TypeError else Ok tt
            else Ok tt
        end
    end.
  (** Lines 415-457. *)
  Definition check_name (cfg : config) (c : cls) : res unit :=
    if allow_abstract_name cfg then Ok tt else
    if is_abstract c
    then if d_abstract_name (c_def c) then Ok tt else Err TypeError
    else if d_abstract_name (c_def c) then Err TypeError else Ok tt.
  (** Lines 463-482: one method against one base. A base without the attribute counts as having
      an abstract method ([_dummy_abstract], line 640). *)
  Definition check_override (cfg : config) (reg : registry) (n : name) (b : nat) : res unit :=
    match resolve (defs_along reg (mro_of reg b)) n with
    | None => Ok tt
    | Some old =>
        if negb (is_function old) then Err TypeError else
        if negb (allow_method_override cfg) && negb (attr_abstract old) then Err TypeError else Ok tt
    end.
  (** Lines 458-462: only functions with non-magic names were wrapped (lines 212-214). *)
  Definition check_method (cfg : config) (reg : registry) (bases : list nat) (na : name * attr) : res unit :=
    let '(n, a) := na in
    if is_function a && negb (magic n) && negb (attr_abstract a)
    then _ <- mapM (check_override cfg reg n) bases ;; Ok tt
    else Ok tt.

  (** Lines 350-482. *)
  Definition check_strict (cfg : config) (reg : registry) (c : cls) : res unit :=
    _ <- mapM (check_base reg c) (d_bases (c_def c)) ;;
    _ <- check_name cfg c ;;
    _ <- mapM (check_method cfg reg (d_bases (c_def c))) (d_dict (c_def c)) ;;
    Ok tt.

  (** [_ActualModuleMeta.__new__]: the new class, or the exception. *)
  Definition create_module (reg : registry) (d : cdef) : res cls :=
    mro <- c3 reg (length reg) (d_bases d) ;;
    let ds := d :: defs_along reg (tl mro) in
    '(av, acv) <- scan_mro ds ;;
    dc <- (if d_has_init d then Ok false else find_dc_init reg (removelast (tl mro))) ;;
    let cfg := match d_strict d with Some cfg => cfg | None => default_config end in
    let c := {| c_kind := KModule; c_def := d; c_mro := mro;
                c_abstractmethods := abstract_methods reg d ds; c_absvars := av; c_absclassvars := acv;
                c_dcfields := own_fields (d_ann d) (inherited_fields reg (tl mro));
                c_force := force_abstract cfg;
                c_strict := match d_strict d with Some _ => true | None => false end;
                c_dc_init := dc |} in
    _ <- (match d_strict d with Some cfg => check_strict cfg reg c | None => Ok tt end) ;;
    Ok c.

  (** Any other class; [special] as in [_is_special_form]. *)
  Definition create_plain (special : bool) (reg : registry) (d : cdef) : res cls :=
    mro <- c3 reg (length reg) (d_bases d) ;;
    Ok {| c_kind := if special then KSpecial else KOther; c_def := d; c_mro := mro;
          c_abstractmethods := []; c_absvars := []; c_absclassvars := []; c_dcfields := [];
          c_force := false; c_strict := false;
          c_dc_init := negb (d_has_init d) &&
                       forallb (fun b => match nth_error reg b with Some c => c_dc_init c | None => true end) (tl mro) |}.

  Definition is_module (reg : registry) (b : nat) : bool :=
    match nth_error reg b with Some c => match c_kind c with KModule => true | _ => false end | None => false end.

  (** All registries that a program can build. A class with a Module among its bases is created by
      the metaclass of Modules. *)
  Inductive reachable : registry -> Prop :=
  | reach_start : reachable start
  | reach_module : forall reg d c, reachable reg ->
      (forall b, In b (d_bases d) -> b < length reg) -> existsb (is_module reg) (d_bases d) = true ->
      create_module reg d = Ok c -> reachable (reg ++ [c])
  | reach_plain : forall reg special d c, reachable reg ->
      (forall b, In b (d_bases d) -> b < length reg) -> existsb (is_module reg) (d_bases d) = false ->
      create_plain special reg d = Ok c -> reachable (reg ++ [c]).
End Strict.

(** [_ActualModuleMeta.__call__] lines 503-505 and [ABCMeta.__call__], _better_abstract.py lines
    219-234, with [object.__new__]'s own check for abstract methods. [init] is the outcome of
    [__init__]; the flag says whether it ran. *)
Definition instantiate {V} (c : cls) (init : res V) : bool * res V :=
  if c_force c then (false, Err TypeError) else
  if negb (Nat.eqb (length (c_absclassvars c)) 0) then (false, Err TypeError) else
  if negb (Nat.eqb (length (c_abstractmethods c)) 0) then (false, Err TypeError) else
  match init with
  | Err e => (true, Err e)
  | Ok v => if negb (Nat.eqb (length (c_absvars c)) 0) then (true, Err TypeError) else (true, Ok v)
  end.
