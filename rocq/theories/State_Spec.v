(** Vocabulary about [State] objects over time. *)
From Verif Require Export State_Model.

Section Spec.
  Context {L S : Type} (asarray : L -> res L) (struct : L -> S) (seqb : S -> S -> bool).
  Notation val := (tree L).
  Notation heap := (@heap L).

  (** One call of the public interface. *)
  Inductive op :=
  | OGet (s : nat) (i : item)
  | OSet (s : nat) (i : item) (v : val)
  | OSubstate (s : nat) (model : tree (@mleaf L))
  | OUpdate (s : nat) (sub : option nat)
  | OFlatten (s : nat)
  | OUnflatten (ks : list marker) (vs : list val)
  | OInit (model : tree (@mleaf L)).

  (** The heap afterwards, and whether the call returned (rather than raised). *)
  Definition step (h : heap) (o : op) : heap * bool :=
    match o with
    | OGet s i => (h, is_ok (state_get h s i))
    | OSet s i v => let '(h', r) := state_set asarray struct seqb h s i v in (h', is_ok r)
    | OSubstate s m => let '(h', r) := state_substate h s m in (h', is_ok r)
    | OUpdate s x => let '(h', r) := state_update h s x in (h', is_ok r)
    | OFlatten s => (h, is_ok (state_flatten h s))
    | OUnflatten ks vs => let '(h', r) := state_unflatten h ks vs in (h', is_ok r)
    | OInit m => let '(h', r) := state_init asarray h m in (h', is_ok r)
    end.

  (** The object on which a method is called, and whether the method is [set] or [update]. *)
  Definition subject (o : op) : option nat :=
    match o with
    | OGet s _ | OSet s _ _ | OSubstate s _ | OUpdate s _ | OFlatten s => Some s
    | _ => None
    end.
  Definition writes (o : op) : bool := match o with OSet _ _ _ | OUpdate _ _ => true | _ => false end.

  (** A program: the outcome of each call, and the final heap. *)
  Fixpoint run (h : heap) (os : list op) : heap * list bool :=
    match os with
    | [] => (h, [])
    | o :: os' => let '(h1, b) := step h o in let '(h2, bs) := run h1 os' in (h2, b :: bs)
    end.

  (** The last value written for [k]. *)
  Fixpoint last_write (k : marker) (w : list (marker * val)) : option val :=
    match w with
    | [] => None
    | (k', v) :: w' => match last_write k w' with
                       | Some v' => Some v'
                       | None => if marker_eqb k' k then Some v else None
                       end
    end.

  (** [s'] in heap [h'] descends from [s] in heap [h] by successful [set]s and [update]s that
      wrote [w] (in this order), while anything else was done to other objects. *)
  Inductive lineage (h : heap) (s : nat) : list (marker * val) -> heap -> nat -> Prop :=
  | lin_start : lineage h s [] h s
  | lin_set : forall w h1 s1 m v v' h2 s2, lineage h s w h1 s1 ->
      as_arrays asarray v = Ok v' ->
      state_set asarray struct seqb h1 s1 (Some m) v = (h2, Ok s2) -> lineage h s (w ++ [(m, v')]) h2 s2
  | lin_update : forall w h1 s1 x items h2 s2, lineage h s w h1 s1 ->
      deref h1 x = Some items ->
      state_update h1 s1 (Some x) = (h2, Ok s2) -> lineage h s (w ++ items) h2 s2
  | lin_other : forall w h1 s1 o, lineage h s w h1 s1 ->
      (subject o <> Some s1 \/ writes o = false) -> lineage h s w (fst (step h1 o)) s1.

  (** Every entry for key [k] has structure [G k]. *)
  Definition typed (G : marker -> tree S) (h : heap) : Prop :=
    forall s d k v, deref h s = Some d -> In (k, v) d -> structs struct v = G k.
  (** Calls that create a state from scratch do so with the right structures. *)
  Definition op_typed (G : marker -> tree S) (o : op) : Prop :=
    match o with
    | OUnflatten ks vs => forall k v, In (k, v) (List.combine ks vs) -> structs struct v = G k
    | OInit model => forall m v v', In (Leaf (Idx m (Some v))) (leaves no_leaf model) ->
        as_arrays asarray v = Ok v' -> structs struct v' = G m
    | _ => True
    end.

  (** Number of [StateIndex]es in a list of leaves. *)
  Fixpoint num_idx (ls : list (tree (@mleaf L))) : nat :=
    match ls with
    | [] => 0
    | Leaf (Idx _ _) :: ls' => Datatypes.S (num_idx ls')
    | _ :: ls' => num_idx ls'
    end.
  (** The initial values, in flatten order. *)
  Fixpoint inits (ls : list (tree (@mleaf L))) : list (option val) :=
    match ls with
    | [] => []
    | Leaf (Idx _ v) :: ls' => v :: inits ls'
    | _ :: ls' => inits ls'
    end.
  (** The same model up to the identity of markers. *)
  Definition forget (m : tree (@mleaf L)) : tree (@mleaf L) :=
    tmap no_leaf (fun l => match l with Leaf (Idx _ v) => Leaf (Idx (MInt 0) v) | _ => l end) m.
End Spec.
