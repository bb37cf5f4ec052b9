(** Model of [tree_check]: equinox/_tree.py lines 352-507.

    A PyTree is given as an object graph: object number [n] is a leaf or a container with a
    list of immediate subnodes (object numbers; [id] in Python). Objects may be shared and
    the graph may have cycles.
    - Containers whose flattening builds new sub-containers each time are not modelled.
    - [None] is a container without subnodes.
    - Python's recursion limit is not modelled; [fuel] bounds the recursion depth instead and
      TreeCheck_Props shows that it is never exhausted when the caller provides one unit per
      object. *)
From Verif Require Export Base.

Definition graph := list (option (list nat)).
(** [None]: a leaf. Numbers outside the graph are leaves as well. *)
Definition subnodes (g : graph) (n : nat) : option (list nat) :=
  match nth_error g n with Some (Some cs) => Some cs | _ => None end.

(** Messages are told apart: 1, immediately self-referential (line 401); 2, self-referential
    (line 488); 3, appears multiple times (line 494). *)
Inductive check_error := ImmediateSelf | SelfRef | Duplicate | OutOfFuel.
Inductive checked (A : Type) := Passed (a : A) | Raised (e : check_error).
Arguments Passed {A} a. Arguments Raised {A} e.
Definition cbind {A B} (x : checked A) (f : A -> checked B) : checked B :=
  match x with Passed a => f a | Raised e => Raised e end.

(** [tree_flatten_one_level], lines 352-416: the subnodes, or [None] for a leaf; raises if the
    node is among its own immediate subnodes. *)
Definition flatten_one_level (g : graph) (n : nat) : checked (option (list nat)) :=
  match subnodes g n with
  | None => Passed None
  | Some cs => if existsb (Nat.eqb n) cs then Raised ImmediateSelf else Passed (Some cs)
  end.

(** The dictionary [all_nodes]: from object to "currently being visited". *)
Definition nodes := nat -> option bool.
Definition put (d : nodes) (n : nat) (b : bool) : nodes :=
  fun m => if Nat.eqb m n then Some b else d m.

(** Line 503: [for subnode in subnodes: _tree_check(subnode, all_nodes)] *)
Fixpoint each (f : nat -> nodes -> checked nodes) (cs : list nat) (d : nodes) : checked nodes :=
  match cs with
  | [] => Passed d
  | c :: cs' => cbind (f c d) (each f cs')
  end.

(** [_tree_check], lines 476-507. *)
Fixpoint check (fuel : nat) (g : graph) (n : nat) (d : nodes) : checked nodes :=
  cbind (flatten_one_level g n) (fun sub =>
    match sub with
    | None | Some [] => Passed d
    | Some cs =>
        match d n with
        | Some true => Raised SelfRef
        | Some false => Raised Duplicate
        | None =>
            match fuel with
            | O => Raised OutOfFuel
            | S fuel' => cbind (each (check fuel' g) cs (put d n true)) (fun d' => Passed (put d' n false))
            end
        end
    end).

(** [tree_check], lines 419-470. *)
Definition tree_check (g : graph) (root : nat) : checked unit :=
  cbind (check (length g) g root (fun _ => None)) (fun _ => Passed tt).
