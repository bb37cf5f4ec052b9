(** Model of [Enumeration]: equinox/_enum.py lines 22-139, 153-169, 292-373.

    - Classes live in a registry and are numbered in the order of creation; 0 is [object] and 1 is
      [Enumeration]. Classes that are not enumerations occur as well.
    - [_value] is a concrete number (lines 127-133: what [__getitem__] says about tracers is left out).
    - Names 0 and 1 are [promote] and [where]. Magic names do not become items and are left out. *)
From Verif Require Export Class_Model.

Definition message := nat.
Definition n_promote : name := 0.
Definition n_where : name := 1.

Record enum := {
  e_is : bool;                          (* issubclass(_, Enumeration) *)
  e_mro : list nat;
  e_items : list (name * nat);          (* _name_to_item, in insertion order *)
  e_msgs : list message;                (* _index_to_message *)
  e_offs : list (nat * list nat) }.     (* _base_offsets *)
Definition object_enum : enum := {| e_is := false; e_mro := [0]; e_items := []; e_msgs := []; e_offs := [] |}.
Definition enumeration_id : nat := 1.
Definition base_enum : enum := {| e_is := true; e_mro := [1; 0]; e_items := []; e_msgs := []; e_offs := [] |}.
Definition ereg := list enum.
Definition estart : ereg := [object_enum; base_enum].

Fixpoint set_nth {X} (i : nat) (x : X) (l : list X) : list X :=
  match l, i with
  | [], _ => []
  | _ :: l', O => x :: l'
  | y :: l', S i' => y :: set_nth i' x l'
  end.

(** [_store], lines 22-45 (the warning is left out). *)
Definition store (st : list (name * nat) * list message) (nm : name * message)
    : list (name * nat) * list message * nat :=
  let '(items, msgs) := st in
  let '(n, m) := nm in
  match aget items n with
  | None => (items ++ [(n, length msgs)], msgs ++ [m], length msgs)
  | Some i => (items, set_nth i m msgs, i)
  end.

(** Lines 88-94. [todo] are the items of the base. *)
Fixpoint store_base (bmsgs : list message) (todo : list (name * nat)) (st : list (name * nat) * list message)
    (offs : list nat) : list (name * nat) * list message * list nat :=
  match todo with
  | [] => (st, offs)
  | (n, i) :: todo' =>
      let '(st', j) := store st (n, nth i bmsgs 0) in
      store_base bmsgs todo' st' (set_nth i j offs)
  end.

Definition mro_e (reg : ereg) (b : nat) : list nat :=
  match nth_error reg b with Some c => e_mro c | None => [] end.

(** Lines 79-95: the inner loop body, over the bases met in order. *)
Fixpoint store_bases (reg : ereg) (bs : list nat) (st : list (name * nat) * list message) (offs : list (nat * list nat))
    : res (list (name * nat) * list message * list (nat * list nat)) :=
  match bs with
  | [] => Ok (st, offs)
  | b :: bs' =>
      match nth_error reg b with
      | None => Err RuntimeError
      | Some e =>
          if negb (e_is e) then Err ValueError else
          match aget offs b with
          | Some _ => store_bases reg bs' st offs
          | None =>
              let '(st', o) := store_base (e_msgs e) (e_items e) st (repeat 0 (length (e_items e))) in
              store_bases reg bs' st' (offs ++ [(b, o)])
          end
      end
  end.
(** Lines 96-98. *)
Fixpoint store_own (ns : list (name * message)) (st : list (name * nat) * list message) : list (name * nat) * list message :=
  match ns with [] => st | nm :: ns' => store_own ns' (fst (store st nm)) end.

(** [original_base.__mro__[:-2]] for each base. *)
Definition visited_bases (reg : ereg) (bases : list nat) : list nat :=
  flat_map (fun b => removelast (removelast (mro_e reg b))) bases.

Definition c3e (reg : ereg) (self : nat) (bases : list nat) : res (list nat) :=
  let seqs := map (mro_e reg) bases ++ [bases] in
  rmap (cons self) (c3_merge (total seqs) seqs).

(** [_EnumerationMeta.__new__], lines 49-114. *)
Definition create_enum (reg : ereg) (bases : list nat) (ns : list (name * message)) : res enum :=
  if existsb (fun nm => Nat.eqb (fst nm) n_promote) ns then Err ValueError else
  if existsb (fun nm => Nat.eqb (fst nm) n_where) ns then Err ValueError else
  mro <- c3e reg (length reg) bases ;;
  '(st, offs) <- store_bases reg (visited_bases reg bases) ([], []) [] ;;
  let '(items, msgs) := store_own ns st in
  Ok {| e_is := true; e_mro := mro; e_items := items; e_msgs := msgs; e_offs := offs |}.
(** An ordinary class. *)
Definition create_other (reg : ereg) (bases : list nat) : res enum :=
  mro <- c3e reg (length reg) bases ;;
  Ok {| e_is := false; e_mro := mro; e_items := []; e_msgs := []; e_offs := [] |}.

Definition is_enum (reg : ereg) (b : nat) : bool := match nth_error reg b with Some e => e_is e | None => false end.

(** All registries a program can build: a class with an enumeration among its bases gets the
    enumerations' metaclass. *)
Inductive ereach : ereg -> Prop :=
| ereach_start : ereach estart
| ereach_enum : forall reg bases ns e, ereach reg ->
    (forall b, In b bases -> b < length reg) -> existsb (is_enum reg) bases = true ->
    create_enum reg bases ns = Ok e -> ereach (reg ++ [e])
| ereach_other : forall reg bases e, ereach reg ->
    (forall b, In b bases -> b < length reg) -> bases <> [] -> existsb (is_enum reg) bases = false ->
    create_other reg bases = Ok e -> ereach (reg ++ [e]).

(** [EnumerationItem]: (enumeration, value). *)
Definition item := (nat * nat)%type.

(** [cls.name], lines 116-120. *)
Definition get_item (reg : ereg) (c : nat) (n : name) : res item :=
  match nth_error reg c with
  | None => Err RuntimeError
  | Some e => match aget (e_items e) n with Some v => Ok (c, v) | None => Err AttributeError end
  end.
(** [cls[item]], lines 122-133. *)
Definition get_message (reg : ereg) (c : nat) (it : item) : res message :=
  if negb (Nat.eqb (fst it) c) then Err ValueError else
  match nth_error reg c with
  | None => Err RuntimeError
  | Some e => match nth_error (e_msgs e) (snd it) with Some m => Ok m | None => Err IndexError end
  end.
(** [item == item], lines 153-160. *)
Definition item_eq (x y : item) : res bool :=
  if Nat.eqb (fst x) (fst y) then Ok (Nat.eqb (snd x) (snd y)) else Err ValueError.
(** [cls.promote(item)], lines 292-332. Indexing of JAX arrays clamps. *)
Definition promote (reg : ereg) (c : nat) (it : item) : res item :=
  match nth_error reg c with
  | None => Err RuntimeError
  | Some e =>
      if negb (mem (fst it) (e_mro e)) || Nat.eqb (fst it) c then Err ValueError else
      match aget (e_offs e) (fst it) with
      | None => Err KeyError
      | Some offs => Ok (c, nth (Nat.min (snd it) (length offs - 1)) offs 0)
      end
  end.
(** [cls.where(pred, a, b)], lines 334-373. [pred] is its shape, whether it is boolean, and its value. *)
Definition where_ (c : nat) (pred : list nat * bool * bool) (a b : item) : res item :=
  let '(shape, isbool, p) := pred in
  if negb (match shape with [] => true | _ => false end) || negb isbool then Err ValueError else
  if Nat.eqb (fst a) c && Nat.eqb (fst b) c
  then if Nat.eqb (snd a) (snd b) then Ok a else Ok (c, if p then snd a else snd b)
  else Err ValueError.
