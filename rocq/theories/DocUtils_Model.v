(** Model of the helpers for documentation and of strings as pytrees: equinox/_doc_utils.py lines 8-52; equinox/internal/_str2jax.py lines 6-18, with [Module.__eq__] and
    [__hash__] (equinox/_module.py lines 1019-1025).

    Simplifications. A parameter is its name, its kind (a number, in Python's order: positional-only 0, positional or keyword 1, variadic 2, keyword-only 3, variadic
    keyword 4) and whether it has a default. [Signature.replace] checks as Python's [inspect] does: kinds in order, no parameter without a default after one with
    (among positional ones), no name twice. A class made by [str2jax] is its position in the list of all classes made; a jitted function with such an argument
    has one entry in its cache for each class. *)
From Coq Require Export String.
From Verif Require Export Base.
Local Open Scope nat_scope.
Local Open Scope list_scope.

Record param := mk_param { pname : string; pkind : nat; pdefault : bool }.
Definition mem (s : string) (l : list string) : bool := existsb (String.eqb s) l.
(** The loop of [inspect.Signature.__init__]. *)
Fixpoint valid_from (top : nat) (defaults : bool) (names : list string) (ps : list param) : bool :=
  match ps with
  | [] => true
  | p :: ps =>
      if pkind p <? top then false
      else if (pkind p <=? 1) && negb (pdefault p) && defaults then false
      else if mem (pname p) names then false
      else valid_from (pkind p) (if (pkind p <=? 1) && pdefault p then true else defaults) (pname p :: names) ps
  end.
Definition replace (ps : list param) : res (list param) := if valid_from 0 false [] ps then Ok ps else Err ValueError.

Section Functions.
  Variables (A B : Type).
  Record func := mk_func { signature : list param; run : A -> B }.
  (** Lines 39-52; [doc]: [typing.GENERATING_DOCUMENTATION]. *)
  Fixpoint kept (args : list string) (ps : list param) : list param :=
    match ps with [] => [] | p :: ps => if negb (mem (pname p) args) then p :: kept args ps else kept args ps end.
  Definition doc_remove_args (doc : bool) (args : list string) (f : func) : res func :=
    if doc then rmap (fun ps => mk_func ps (run f)) (replace (kept args (signature f))) else Ok f.
  (** Lines 8-36: an object that can be called, with its [repr]. *)
  Record object := mk_object { call : A -> B; repr : string }.
  Definition doc_repr (doc : bool) (o : object) (s : string) : object := if doc then mk_object (call o) s else o.
End Functions.
Arguments mk_func {A B}. Arguments signature {A B}. Arguments run {A B}. Arguments doc_remove_args {A B}. Arguments mk_object {A B}. Arguments call {A B}. Arguments repr {A B}. Arguments doc_repr {A B}.

(** *** [str2jax] *)
Definition classes := list string.
Definition str2jax (msg : string) (cs : classes) : classes * nat := (cs ++ [msg], List.length cs).
Definition str_of (cs : classes) (o : nat) : option string := nth_error cs o.
(** A module without fields: no leaves, and the class as structure. *)
Definition flatten (o : nat) : list unit * nat := ([], o).
Definition unflatten (leaves : list unit) (c : nat) : nat := c.
Definition equal (o o' : nat) : bool := Nat.eqb (snd (flatten o)) (snd (flatten o')).
Definition hash (o : nat) : list unit := fst (flatten o).
Fixpoint make_all (msgs : list string) (cs : classes) : classes * list nat :=
  match msgs with [] => (cs, []) | m :: msgs => let '(cs, o) := str2jax m cs in let '(cs, os) := make_all msgs cs in (cs, o :: os) end.
(** The number of times a jitted function is traced when called with these arguments. *)
Fixpoint traces (cache : list nat) (os : list nat) : nat :=
  match os with [] => 0 | o :: os => if existsb (equal o) cache then traces cache os else S (traces (o :: cache) os) end.
