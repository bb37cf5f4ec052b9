(** Model of the rewriting of loops over PyTrees with buffers: equinox/internal/_loop/common.py lines 367-377 ([_is_buffer], [_unwrap_buffers]) and
    381-513 ([common_rewrite]).

    - Arrays are of an arbitrary type; [struct] is their shape and dtype. [fixed_asarray] has been applied to all leaves.
    - A [_Buffer] is a node with the children [_array] and [_pred]; its label holds the static fields [_tag] and [_makes_false_steps]. Labels of
      buffers are odd, those of other nodes even. The tag [None] is 0; [object()] of line 454 is a number given to the model.
    - [buffers] selects nodes by their positions in the loop's value. [tree_at] is that of TreeAt_Model.
    - Line 484 compares ShapeDtypeStructs in place of arrays; [named_shape] is not modelled.
    - One lane of a batched loop at a time; [unvmap_any] is the disjunction over the lanes. [cond_fun] returns a boolean. *)
From Verif Require Export TreeAt_Spec Loop_Model.
Local Open Scope nat_scope.
Local Open Scope list_scope.

Definition buf_label (tag : nat) (false_steps : bool) : nat := S (2 * (2 * tag + (if false_steps then 1 else 0))).
Definition is_buf_label (k : nat) : bool := Nat.odd k.
Definition tag_of (k : nat) : nat := k / 4.

Section LoopTree.
  Variables A S : Type.
  Variable struct : A -> S.
  Variable seqb : S -> S -> bool.
  Variable aeq : A -> A -> bool.
  Variable arr_of : bool -> A.
  Variables false_steps real : bool.

  (** Lines 401-416: the positions of the leaves of a selected node, the predicates of nested buffers left out. *)
  Fixpoint buffer_leaves (t : tree A) : list path :=
    match t with
    | Leaf _ => [[]]
    | TNone => []
    | Node k cs =>
        if is_buf_label k then match cs with c :: _ => map (cons 0) (buffer_leaves c) | [] => [] end
        else concat (mapi (fun i ps => map (cons i) ps) 0 (map buffer_leaves cs))
    end.
  Definition selected (bufs : list path) (val : tree A) : list path :=
    flat_map (fun p => match sub val p with Some t => map (app p) (buffer_leaves t) | None => [] end) bufs.
  (** Lines 418-427. *)
  Definition wrap_buffer (pred : bool) (tag : nat) (t : tree A) : res (tree A) :=
    match t with
    | Leaf a => Ok (Node (buf_label tag false_steps) [Leaf a; Leaf (arr_of pred)])
    | _ => Err ValueError
    end.
  Definition wrap_buffers (bufs : list path) (val : tree A) (pred : bool) (tag : nat) : res (tree A) :=
    out <- tree_at aeq (by_value (fun _ => false)) (where_many (map (cons 3) (selected bufs val))) (Node ktuple [TNone; TNone; TNone; val])
             None (Some (fn_by_value (wrap_buffer pred tag))) ;;
    match out with Node _ [_; _; _; val] => Ok val | _ => Err ValueError end.

  Variable cond_fun : tree A -> res bool.
  Variable body_fun : tree A -> res (tree A).
  Variable bufs : list path.

  (** Lines 456-468. *)
  Definition our_buffer (tag : nat) (t : tree A) : bool :=
    match t with Node k _ => is_buf_label k && Nat.eqb (tag_of k) tag | _ => false end.
  Definition array_of (t : tree A) : res A :=
    match t with Node _ (Leaf a :: _) => Ok a | _ => Err AssertionError end.
  Definition unwrap_and_select (tag : nat) (pred : bool) (t t2 : tree A) : res (tree A) :=
    if our_buffer tag t then
      if our_buffer tag t2 then _ <- array_of t ;; a2 <- array_of t2 ;; Ok (Leaf a2) else Err AssertionError
    else match t, t2 with Leaf a, Leaf a2 => Ok (Leaf (select_if_vmap real pred a2 a)) | _, _ => Err ValueError end.
  (** Lines 453-506, for one lane: (pred, prev_pred, val). *)
  Definition same_struct (t t2 : tree A) : bool := tree_eqb (fun a b => seqb (struct a) (struct b)) t t2.
  Definition new_body (tag : nat) (l : bool * bool * tree A) : res (bool * bool * tree A) :=
    let '(pred, _, val) := l in
    buffer_val <- wrap_buffers bufs val pred tag ;;
    buffer_val2 <- body_fun buffer_val ;;
    if negb (same_struct buffer_val buffer_val2) then Err ValueError else
    val2 <- tmap2 (our_buffer tag) (unwrap_and_select tag pred) buffer_val buffer_val2 ;;
    c <- cond_fun buffer_val2 ;;
    Ok (pred && c, pred, val2).
  (** Lines 429-451. *)
  Definition lane_cond (l : bool * bool * tree A) : res bool :=
    let '(_, prev_pred, val) := l in
    buffer_val <- wrap_buffers bufs val prev_pred 0 ;;
    cond_fun buffer_val.
  Definition new_cond (max_steps : option Z) (s : Z * list (bool * bool * tree A)) : res bool :=
    cs <- mapM lane_cond (snd s) ;;
    let out := existsb (fun c => c) cs in
    Ok (match max_steps with Some m => out && (fst s <? m)%Z | None => out end).
  (** Lines 508-511. *)
  Definition new_init (val : tree A) : res (bool * bool * tree A) :=
    buffer_val <- wrap_buffers bufs val true 0 ;;
    pred <- cond_fun buffer_val ;;
    Ok (pred, true, val).

  (** loop.py lines 96-103 ([kind="lax"]); [tags]: the objects of line 454. [None]: not finished within the fuel. *)
  Fixpoint loop (fuel : nat) (tags : nat -> nat) (max_steps : option Z) (s : Z * list (bool * bool * tree A))
      : res (option (Z * list (bool * bool * tree A))) :=
    match fuel with
    | O => Ok None
    | Datatypes.S fuel =>
        c <- new_cond max_steps s ;;
        if c then
          ls <- mapM (new_body (tags 0)) (snd s) ;;
          loop fuel (fun n => tags (n + 1)) max_steps (fst s + 1, ls)%Z
        else Ok (Some s)
    end.
  Definition tree_loop (fuel : nat) (tags : nat -> nat) (max_steps : option Z) (vals : list (tree A)) : res (option (list (tree A))) :=
    ls <- mapM new_init vals ;;
    r <- loop fuel tags max_steps (0%Z, ls) ;;
    Ok (option_map (fun s => map snd (snd s)) r).
End LoopTree.
