(** Model of filter_jit: equinox/_jit.py lines 41-108, 193-293, 374-431, and [Lowered]/[Compiled]
    of equinox/_compile_utils.py lines 98-125.

    - [inspect.Signature.bind] is modelled for signatures with positional-or-keyword parameters,
      [*args], keyword-only parameters and [**kwargs] (positional-only parameters: as the first
      kind, never passed by name). Default values stay with the function.
    - [jax.jit] (outside /repo): a table of traces, looked up by the structure and abstract values
      (shape, dtype) of the dynamic arguments and by the static argument, which is compared with
      Python's [==]. On a miss the Python function is traced, with the static argument of that
      call; a trace computes what the (pure) function computes on all arrays of that kind.
    - Donated buffers are recorded: after the call the caller cannot use them any more.
    - Static leaves are hashable ([jax.jit] refuses others).
    - Exceptions at run time, logging, warnings and [block_until_ready] are not modelled. *)
From Coq Require Export String.
From Verif Require Export Hashable_Model Filters_Model.
Export ListNotations.
Local Open Scope nat_scope.
Local Open Scope list_scope.

(** ** Signatures *)
Section Sig.
  Context {V : Type}.
  Record signature := { pos : list (string * bool); varargs : bool; kwonly : list (string * bool); varkw : bool }.
  Record bound := { b_pos : list (option V); b_extra : list V; b_kwo : list (option V); b_kwx : list (string * V) }.
  Fixpoint lookup (k : string) (d : list (string * V)) : option V :=
    match d with [] => None | (k', v) :: d' => if String.eqb k k' then Some v else lookup k d' end.
  Definition without (k : string) (d : list (string * V)) : list (string * V) := List.filter (fun e => negb (String.eqb k (fst e))) d.
  Fixpoint bind_pos (ps : list (string * bool)) (args : list V) (kw : list (string * V)) : res (list (option V) * list V * list (string * V)) :=
    match ps, args with
    | [], _ => Ok ([], args, kw)
    | (n, _) :: ps', a :: args' =>
        match lookup n kw with
        | Some _ => Err TypeError
        | None => '(r, e, k) <- bind_pos ps' args' kw ;; Ok (Some a :: r, e, k)
        end
    | (n, d) :: ps', [] =>
        match lookup n kw with
        | Some v => '(r, e, k) <- bind_pos ps' [] (without n kw) ;; Ok (Some v :: r, e, k)
        | None => if d then '(r, e, k) <- bind_pos ps' [] kw ;; Ok (None :: r, e, k) else Err TypeError
        end
    end.
  Definition sig_bind (s : signature) (args : list V) (kw : list (string * V)) : res bound :=
    '(p, e, kw1) <- bind_pos (pos s) args kw ;;
    '(o, _, kw2) <- bind_pos (kwonly s) [] kw1 ;;
    if negb (varargs s) && (0 <? length e) then Err TypeError else
    if negb (varkw s) && (0 <? length kw2) then Err TypeError else
    Ok {| b_pos := p; b_extra := e; b_kwo := o; b_kwx := kw2 |}.
  (** [BoundArguments.args], [BoundArguments.kwargs]. *)
  Fixpoint prefix_some (l : list (option V)) : list V := match l with Some v :: l' => v :: prefix_some l' | _ => [] end.
  Fixpoint named (ps : list (string * bool)) (l : list (option V)) : list (string * V) :=
    match ps, l with
    | (n, _) :: ps', Some v :: l' => (n, v) :: named ps' l'
    | _ :: ps', None :: l' => named ps' l'
    | _, _ => []
    end.
  Fixpoint after_none (ps : list (string * bool)) (l : list (option V)) : list (string * V) :=
    match ps, l with
    | _ :: ps', Some _ :: l' => after_none ps' l'
    | _ :: ps', None :: l' => named ps' l'
    | _, _ => []
    end.
  Definition bound_args (b : bound) : list V := prefix_some (b_pos b) ++ b_extra b.
  Definition bound_kwargs (s : signature) (b : bound) : list (string * V) := after_none (pos s) (b_pos b) ++ named (kwonly s) (b_kwo b) ++ b_kwx b.
End Sig.
Arguments bound : clear implicits.

Section Jit.
  Variable A : Type.
  Local Notation T := (tree A).
  (** [is_array]. *)
  Variable is_array : T -> bool.
  (** The dictionary [kwargs] as a pytree. JAX sorts the keys; here it is any injective way
      of making it a tree, with its inverse. *)
  Variable pack : list T -> list (string * T) -> T.
  Variable unpack : T -> res (list T * list (string * T)).
  (** The user's function: an object together with what its body does with bound arguments. *)
  Variable sig : signature.
  Variable body : T -> bound T -> res T.
  Definition invoke (f : T) (args : list T) (kw : list (string * T)) : res T := b <- sig_bind sig args kw ;; body f b.

  Definition static := (list T * tree unit)%type.
  Definition statics := (static * static * static)%type.
  (** Lines 66-103. [None] is the dummy argument of line 77. The two dictionaries have the keys
      [fun], [first], [rest]; [Some] where present. *)
  Record dyn := { d_fun : option (list T); d_first : option (list T); d_rest : option (list T) }.
  Definition preprocess (dfun : list T) (sfun : static) (donate_first donate_rest : bool) (args : list T) (kw : list (string * T)) : res (dyn * dyn * statics) :=
    b <- sig_bind sig args kw ;;
    let args := bound_args b ++ [TNone] in
    let kw := bound_kwargs sig b in
    let first := hd TNone args in
    let rest := tl args in
    let '(dfirst, sfirst) := hashable_partition first is_array in
    let '(drest, srest) := hashable_partition (pack rest kw) is_array in
    let f := if donate_first then Some dfirst else None in
    let nf := if donate_first then None else Some dfirst in
    let r x := if donate_rest then Some x else None in
    let nr (x : list T) := if donate_rest then None else Some x in
    Ok ({| d_fun := r dfun; d_first := f; d_rest := r drest |}, {| d_fun := nr dfun; d_first := nf; d_rest := nr drest |}, (sfun, sfirst, srest)).

  (** Lines 43-58: merging the dictionaries refuses repeated keys, [pop] missing ones. *)
  Definition merge {X} (a b : option X) : res X :=
    match a, b with Some x, None | None, Some x => Ok x | None, None => Err KeyError | _, _ => Err TypeError end.
  Fixpoint split_last (l : list T) : res (list T * T) :=
    match l with [] => Err ValueError | [x] => Ok ([], x) | x :: l' => '(a, z) <- split_last l' ;; Ok (x :: a, z) end.
  Definition fun_wrapped (a b : dyn) (s : statics) : res (T * T) :=
    df <- merge (d_fun a) (d_fun b) ;; d1 <- merge (d_first a) (d_first b) ;; dr <- merge (d_rest a) (d_rest b) ;;
    let '(sf, s1, sr) := s in
    f <- hashable_combine df sf ;; first <- hashable_combine d1 s1 ;; rk <- hashable_combine dr sr ;;
    '(rest, kw) <- unpack rk ;;
    '(args, dummy) <- split_last (first :: rest) ;;
    _ <- (if is_none dummy then Ok tt else Err AssertionError) ;;
    out <- invoke f args kw ;;
    eqx_partition no_leaf TNone out (Leaf (SCall is_array)).
  (** Lines 106-108. *)
  Definition postprocess (o : T * T) : res T := eqx_combine no_leaf [fst o; snd o].

  (** *** jax.jit *)
  (** Shape and dtype of an array (structure of anything else). *)
  Variable Ab : Type.
  Variable abs : T -> Ab.
  Variable ab_eqb : Ab -> Ab -> bool.
  (** Python's [==] on the leaves of the static argument; treedefs are compared structurally. *)
  Variable py_eqb : T -> T -> bool.
  Fixpoint list_eqb {X} (f : X -> X -> bool) (l r : list X) : bool :=
    match l, r with [], [] => true | x :: l', y :: r' => f x y && list_eqb f l' r' | _, _ => false end.
  Definition opt_eqb {X} (f : X -> X -> bool) (l r : option X) : bool :=
    match l, r with None, None => true | Some x, Some y => f x y | _, _ => false end.
  Variable def_eqb : tree unit -> tree unit -> bool.
  Definition abd := (option (list Ab) * option (list Ab) * option (list Ab))%type.
  Definition abs_dyn (d : dyn) : abd := (option_map (map abs) (d_fun d), option_map (map abs) (d_first d), option_map (map abs) (d_rest d)).
  Definition abd_eqb (a b : abd) : bool :=
    let '(a1, a2, a3) := a in let '(b1, b2, b3) := b in
    opt_eqb (list_eqb ab_eqb) a1 b1 && opt_eqb (list_eqb ab_eqb) a2 b2 && opt_eqb (list_eqb ab_eqb) a3 b3.
  Definition static_eqb (a b : static) : bool := list_eqb py_eqb (fst a) (fst b) && def_eqb (snd a) (snd b).
  Definition statics_eqb (a b : statics) : bool :=
    let '(a1, a2, a3) := a in let '(b1, b2, b3) := b in static_eqb a1 b1 && static_eqb a2 b2 && static_eqb a3 b3.
  Definition entry := (abd * abd * statics)%type.
  Definition cache := list entry.
  Definition hit (a b : dyn) (s : statics) (e : entry) : bool :=
    let '(ea, eb, es) := e in abd_eqb (abs_dyn a) ea && abd_eqb (abs_dyn b) eb && statics_eqb s es.
  (** The static argument the trace was made with, and whether the function was traced now. *)
  Definition jitted (c : cache) (a b : dyn) (s : statics) : res (T * T) * cache * bool :=
    match find (hit a b s) c with
    | Some (_, _, s0) => (fun_wrapped a b s0, c, false)
    | None => (fun_wrapped a b s, c ++ [(abs_dyn a, abs_dyn b, s)], true)
    end.

  (** *** filter_jit: lines 391-431 *)
  Record wrapper := { w_dfun : list T; w_sfun : static; w_quiet : bool; w_first : bool; w_rest : bool }.
  Definition filter_jit (f : T) (donate : string) : res wrapper :=
    '(q, d1, dr) <-
      (if String.eqb donate "all" then Ok (true, true, true)
       else if String.eqb donate "all-except-first" then Ok (true, false, true)
       else if String.eqb donate "warn" then Ok (false, true, true)
       else if String.eqb donate "warn-except-first" then Ok (false, false, true)
       else if String.eqb donate "none" then Ok (false, false, false)
       else Err ValueError) ;;
    let '(df, sf) := hashable_partition f is_array in
    Ok {| w_dfun := df; w_sfun := sf; w_quiet := q; w_first := d1; w_rest := dr |}.
  (** What is donated: the arrays in the first argument of the compiled function (line 63). *)
  Definition somes (l : list T) : list T := List.filter (fun x => negb (is_none x)) l.
  Definition donated (a : dyn) : list T :=
    let g (o : option (list T)) := match o with Some l => somes l | None => [] end in g (d_fun a) ++ g (d_first a) ++ g (d_rest a).
  Record outcome := { o_result : res T; o_donated : list T; o_cache : cache; o_traced : bool }.
  (** Lines 230-293. *)
  Definition call (w : wrapper) (c : cache) (args : list T) (kw : list (string * T)) : outcome :=
    match preprocess (w_dfun w) (w_sfun w) (w_first w) (w_rest w) args kw with
    | Err e => {| o_result := Err e; o_donated := []; o_cache := c; o_traced := false |}
    | Ok (a, b, s) =>
        let '(r, c', n) := jitted c a b s in
        {| o_result := o <- r ;; postprocess o; o_donated := donated a; o_cache := c'; o_traced := n |}
    end.
  (** [filter_jit(f).lower( *args).compile()]: lines 98-125 of _compile_utils.py and 80-85 here: the
      static argument is that of lowering; JAX checks the abstract values only. *)
  Definition compiled (w : wrapper) (args : list T) (kw : list (string * T)) : res (abd * abd * statics) :=
    '(a, b, s) <- preprocess (w_dfun w) (w_sfun w) (w_first w) (w_rest w) args kw ;; Ok (abs_dyn a, abs_dyn b, s).
  Definition call_compiled (w : wrapper) (c : abd * abd * statics) (args : list T) (kw : list (string * T)) : res T :=
    let '(ea, eb, s0) := c in
    '(a, b, _) <- preprocess (w_dfun w) (w_sfun w) (w_first w) (w_rest w) args kw ;;
    if abd_eqb (abs_dyn a) ea && abd_eqb (abs_dyn b) eb then o <- fun_wrapped a b s0 ;; postprocess o else Err TypeError.
End Jit.
