(** Model of functions as PyTrees: equinox/internal/_closure_to_pytree.py lines 19-130.

    - Values: leaves of an arbitrary type [L]; PyTree nodes (with an arbitrary label); functions; [_Closure]s. A function object has an identity of its code
      (with its globals), its default values, and its cells, addresses in a heap; an empty cell is [None]. [__closure__ is None] is no cells.
      [_Closure] has the function's code and defaults ([_FunctionWithEquality.fn]) and the contents of the cells.
    - Function bodies are expressions that may do anything that matters here: read arguments and cells, build and take apart tuples, compute with leaves, branch,
      call, create functions capturing cells and arguments, assign to cells ([nonlocal]), and ask whether a value is a function.
    - Defaults are leaves. Keyword arguments, function attributes, names and annotations are left out. Objects are not shared, other than cells.
    - [None] as a result of evaluation means that the fuel was not enough; for [closure_to_pytree] unbounded recursion (RecursionError). *)
From Verif Require Export Base.
Local Open Scope nat_scope.
Local Open Scope list_scope.

Section Funtree.
  Variable L : Type.
  Inductive val :=
  | VLeaf (l : L)
  | VNode (k : nat) (vs : list val)
  | VFun (f : nat) (d : list L) (cells : list nat)
  | VClos (f : nat) (d : list L) (contents : list val).
  Definition heap := list (option val).

  (** ** Conversion *)
  Fixpoint omapR {A B} (f : A -> option (res B)) (l : list A) : option (res (list B)) :=
    match l with
    | [] => Some (Ok [])
    | x :: l' => match f x with
                 | None => None
                 | Some (Err e) => Some (Err e)
                 | Some (Ok y) => match omapR f l' with
                                  | None => None
                                  | Some (Err e) => Some (Err e)
                                  | Some (Ok ys) => Some (Ok (y :: ys))
                                  end
                 end
    end.
  (** Lines 94-98, 130 and 70-79. Reading an empty cell raises. A [_Closure] is a module, hence a node: its contents are converted, its leaf [fn] is no
      plain function. *)
  Fixpoint to_pytree (n : nat) (h : heap) (v : val) : option (res val) :=
    match n with
    | O => None
    | S n' =>
        match v with
        | VLeaf l => Some (Ok (VLeaf l))
        | VNode k vs => option_map (rmap (VNode k)) (omapR (to_pytree n' h) vs)
        | VClos f d cs => option_map (rmap (VClos f d)) (omapR (to_pytree n' h) cs)
        | VFun f d cells =>
            option_map (rmap (VClos f d))
              (omapR (fun a => match nth_error h a with Some (Some v) => to_pytree n' h v | _ => Some (Err ValueError) end) cells)
        end
    end.

  (** ** Running functions *)
  Inductive capture := CCell (i : nat) | CArg (i : nat).
  Inductive expr :=
  | Arg (i : nat) | Cell (i : nat) | Lit (l : L)
  | Tup (k : nat) (es : list expr) | Proj (i : nat) (e : expr)
  | Prim (op : nat) (es : list expr) | If (c t f : expr)
  | App (e : expr) (es : list expr)
  | Lam (f : nat) (d : list L) (caps : list capture)
  | Assign (i : nat) (e : expr)
  | IsFun (e : expr).
  (** The program: of every function the number of parameters and the body. *)
  Variable params : nat -> nat.
  Variable body : nat -> expr.
  Variable prim : nat -> list L -> res L.
  Variable truth : L -> bool.
  Variable of_bool : bool -> L.

  (** Missing arguments are taken from the last defaults. *)
  Definition fill (n : nat) (d : list L) (args : list val) : res (list val) :=
    if Nat.ltb n (length args) then Err TypeError else
    let missing := n - length args in
    if Nat.ltb (length d) missing then Err TypeError else
    Ok (args ++ map VLeaf (skipn (length d - missing) d)).
  Definition set_cell (h : heap) (a : nat) (v : val) : heap := firstn a h ++ Some v :: skipn (S a) h.
  (** Cells of a new function: captured cells are shared, captured arguments get new cells. *)
  Fixpoint capture_all (h : heap) (cells : list nat) (args : list val) (caps : list capture) : res (list nat * heap) :=
    match caps with
    | [] => Ok ([], h)
    | CCell i :: caps' =>
        match nth_error cells i with
        | None => Err (OtherError 4)
        | Some a => '(l, h) <- capture_all h cells args caps' ;; Ok (a :: l, h)
        end
    | CArg i :: caps' =>
        match nth_error args i with
        | None => Err (OtherError 4)
        | Some v => '(l, h') <- capture_all (h ++ [Some v]) cells args caps' ;; Ok (length h :: l, h')
        end
    end.
  Fixpoint to_leaves (vs : list val) : res (list L) :=
    match vs with
    | [] => Ok []
    | VLeaf l :: vs' => ls <- to_leaves vs' ;; Ok (l :: ls)
    | _ :: _ => Err TypeError
    end.
  Definition outcome := option (res (val * heap)).
  Definition obind {A B} (x : option (res (A * heap))) (f : A -> heap -> option (res (B * heap))) : option (res (B * heap)) :=
    match x with None => None | Some (Err e) => Some (Err e) | Some (Ok (a, h)) => f a h end.
  Fixpoint each (ev : heap -> expr -> outcome) (h : heap) (es : list expr) : option (res (list val * heap)) :=
    match es with
    | [] => Some (Ok ([], h))
    | e :: es' => obind (ev h e) (fun v h => obind (each ev h es') (fun vs h => Some (Ok (v :: vs, h))))
    end.
  (** Calling [v]; [run] evaluates a body. Lines 81-87 with 19-39: a [_Closure] makes new cells for every call. *)
  Definition call (run : heap -> list nat -> list val -> expr -> outcome) (h : heap) (v : val) (args : list val) : outcome :=
    match v with
    | VFun f d cells => match fill (params f) d args with Ok args => run h cells args (body f) | Err e => Some (Err e) end
    | VClos f d cs =>
        match fill (params f) d args with
        | Ok args => run (h ++ map Some cs) (seq (length h) (length cs)) args (body f)
        | Err e => Some (Err e)
        end
    | _ => Some (Err TypeError)
    end.
  Fixpoint eval (n : nat) (h : heap) (cells : list nat) (args : list val) (e : expr) : outcome :=
    match n with
    | O => None
    | S n' =>
        let ev h e := eval n' h cells args e in
        match e with
        | Arg i => Some (match nth_error args i with Some v => Ok (v, h) | None => Err (OtherError 4) end)
        | Cell i => Some (match nth_error cells i with
                          | None => Err (OtherError 4)
                          | Some a => match nth_error h a with Some (Some v) => Ok (v, h) | _ => Err (OtherError 4) end
                          end)
        | Lit l => Some (Ok (VLeaf l, h))
        | Tup k es => obind (each ev h es) (fun vs h => Some (Ok (VNode k vs, h)))
        | Proj i e => obind (ev h e) (fun v h => Some (match v with
                                                       | VNode _ vs => match nth_error vs i with Some v => Ok (v, h) | None => Err IndexError end
                                                       | _ => Err TypeError
                                                       end))
        | Prim op es => obind (each ev h es) (fun vs h => Some (ls <- to_leaves vs ;; l <- prim op ls ;; Ok (VLeaf l, h)))
        | If c t f => obind (ev h c) (fun v h => match v with
                                                 | VLeaf l => if truth l then ev h t else ev h f
                                                 | _ => Some (Err TypeError)
                                                 end)
        | App e es => obind (ev h e) (fun v h => obind (each ev h es) (fun vs h => call (eval n') h v vs))
        | Lam f d caps => Some ('(l, h) <- capture_all h cells args caps ;; Ok (VFun f d l, h))
        | Assign i e => obind (ev h e) (fun v h => Some (match nth_error cells i with
                                                         | None => Err (OtherError 4)
                                                         | Some a => Ok (v, set_cell h a v)
                                                         end))
        | IsFun e => obind (ev h e) (fun v h => Some (Ok (VLeaf (of_bool (match v with VFun _ _ _ => true | _ => false end)), h)))
        end
    end.

  (** ** Comparison (lines 46-66) and leaves, as [filter_jit] sees them *)
  Variable I : Type.
  (** [__qualname__], [__module__] and the source text. *)
  Variable information : nat -> I.
  Variable i_eqb : I -> I -> bool.
  Variable l_eqb : L -> L -> bool.
  Inductive leaf := LVal (l : L) | LFun (f : nat) (d : list L).
  Fixpoint tree_leaves (v : val) : list leaf :=
    match v with
    | VLeaf l => [LVal l]
    | VNode _ vs => flat_map tree_leaves vs
    | VFun f d _ => [LFun f d]
    | VClos f d cs => LFun f d :: flat_map tree_leaves cs
    end.
  (** [==] of two converted values: structure, leaves, and [_FunctionWithEquality.__eq__]. *)
  Fixpoint same (v w : val) {struct v} : bool :=
    let all := fix all (vs ws : list val) : bool :=
      match vs, ws with [], [] => true | v :: vs', w :: ws' => same v w && all vs' ws' | _, _ => false end in
    match v, w with
    | VLeaf l, VLeaf l' => l_eqb l l'
    | VNode k vs, VNode k' vs' => Nat.eqb k k' && all vs vs'
    | VClos f _ cs, VClos f' _ cs' => i_eqb (information f) (information f') && all cs cs'
    | _, _ => false
    end.
End Funtree.
