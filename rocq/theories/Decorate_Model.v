(** Model of how the decorators of equinox take their options: [filter_jit] equinox/_jit.py lines 315-431, [filter_value_and_grad] and [filter_grad]
    equinox/_ad.py lines 151-192 and 229-279, [filter_vmap] and [filter_pmap] equinox/_vmap_pmap.py lines 215-362 and 542-681, [filter_checkpoint]
    equinox/_ad.py lines 1150-1184, [assert_max_traces] equinox/debug/_max_traces.py lines 99-155, [filter_primitive_transpose]
    equinox/internal/_primitive.py lines 191-207, [deprecated_0_10] equinox/_deprecate.py lines 1-11, [functools.partial] and Python's rules for keyword arguments.

    Simplifications. What a wrapper does is not modelled here, only which function and options it holds. A function is a number. Keyword arguments are a list
    of pairs in the order of Python's dictionaries. A missing function is [None] (the sentinel is not passed explicitly);
    something else than a function as function is a TypeError. *)
From Verif Require Export Base.
From Coq Require Export String.
Local Open Scope string_scope.
Local Open Scope list_scope.

(** Values of options: strings (for [donate]), [None], a function, or anything else. *)
Inductive value := VStr (s : string) | VNone | VFun (f : nat) | VAny (n : nat).
Definition dict := list (string * value).
Fixpoint lookup (k : string) (d : dict) : option value := match d with [] => None | (k', v) :: d => if String.eqb k k' then Some v else lookup k d end.
Definition has (k : string) (d : dict) : bool := match lookup k d with Some _ => true | None => false end.
(** [d[k] = v] *)
Fixpoint put (k : string) (v : value) (d : dict) : dict := match d with [] => [(k, v)] | (k', v') :: d => if String.eqb k k' then (k', v) :: d else (k', v') :: put k v d end.
(** Python: a dictionary with the entries of [a], then those of [b]. *)
Definition merge (a b : dict) : dict := fold_left (fun a e => put (fst e) (snd e) a) b a.

Inductive decorator := Jit | Value_and_grad | Grad | Vmap | Pmap | Checkpoint | Max_traces | Transpose.
(** The name of the argument for the function. *)
Definition first (d : decorator) : string := match d with Max_traces => "fn" | Transpose => "rule" | _ => "fun" end.
(** The keyword-only arguments with their defaults; [None] if there is none. [VAny 0] is [if_array(0)], [VAny 1] is [False], [VAny 2] is [True]. *)
Definition options (d : decorator) : list (string * option value) :=
  match d with
  | Jit => [("donate", Some (VStr "none"))]
  | Value_and_grad | Grad => [("has_aux", Some (VAny 1))]
  | Vmap => [("in_axes", Some (VAny 0)); ("out_axes", Some (VAny 0)); ("axis_name", Some VNone); ("axis_size", Some VNone)]
  | Pmap => [("in_axes", Some (VAny 0)); ("out_axes", Some (VAny 0)); ("axis_name", Some VNone); ("axis_size", Some VNone); ("donate", Some (VStr "none"))]
  | Checkpoint => [("prevent_cse", Some (VAny 2)); ("policy", Some VNone)]
  | Max_traces => [("max_traces", None)]
  | Transpose => [("materialise_zeros", Some (VAny 1))]
  end.
(** Whether further keyword arguments are taken. *)
Definition extra (d : decorator) : bool := match d with Jit | Value_and_grad | Grad | Vmap | Pmap => true | _ => false end.

(** What a wrapper holds: the options after the checks, the further keyword arguments, and flags (for [filter_jit]: [filter_warning], [donate_first],
    [donate_rest]; for [filter_pmap]: [filter_warning]). *)
Record wrapper := mk_wrapper { deco : decorator; fn : nat; opts : dict; extras : dict; flags : list bool }.
Inductive result := Partial (kw : dict) | Wrapped (w : wrapper).

(** [deprecated_0_10(kwargs, name)] for every name, and the further checks for names. *)
Definition forbid (names : list string) (kw : dict) : res unit := if existsb (fun n => has n kw) names then Err ValueError else Ok tt.
Definition opt (k : string) (o : dict) : value := match lookup k o with Some v => v | None => VNone end.
Definition is_str (s : string) (v : value) : bool := match v with VStr s' => String.eqb s s' | _ => false end.
(** _jit.py lines 390-414. *)
Definition jit_flags (v : value) : res (list bool) :=
  if is_str "all" v then Ok [true; true; true] else if is_str "all-except-first" v then Ok [true; false; true] else if is_str "warn" v then Ok [false; true; true]
  else if is_str "warn-except-first" v then Ok [false; false; true] else if is_str "none" v then Ok [false; false; false] else Err ValueError.
Definition old_names : list string := ["default"; "fn"; "args"; "kwargs"; "out"].
(** The rest of the decorator, with a function. *)
Definition wrap (d : decorator) (f : nat) (o e : dict) : res wrapper :=
  match d with
  | Jit =>
      _ <- forbid old_names e ;;
      _ <- forbid ["static_argnums"; "static_argnames"; "donate_argnums"] e ;;
      fl <- jit_flags (opt "donate" o) ;; Ok (mk_wrapper d f o e fl)
  | Value_and_grad | Grad =>
      _ <- forbid ["arg"; "filter_spec"] e ;;
      match opt "argnums" e with VNone => Ok (mk_wrapper d f o (List.filter (fun x => negb (String.eqb (fst x) "argnums")) e) []) | _ => Err ValueError end
  | Vmap => _ <- forbid old_names e ;; Ok (mk_wrapper d f o e [])
  | Pmap =>
      _ <- forbid old_names e ;;
      _ <- forbid ["static_broadcasted_argnums"; "donate_argnums"] e ;;
      let donate := if is_str "arrays" (opt "donate" o) then VStr "all" else opt "donate" o in
      if is_str "all" donate || is_str "warn" donate || is_str "none" donate then
        Ok (mk_wrapper d f (put "donate" donate o) (if is_str "none" donate then e else put "donate_argnums" (VAny 0) e) [is_str "all" donate])
      else Err ValueError
  | Checkpoint | Max_traces | Transpose => Ok (mk_wrapper d f o e [])
  end.

Definition known (d : decorator) (k : string) : bool := String.eqb k (first d) || existsb (fun o => String.eqb k (fst o)) (options d).
(** The values of the keyword-only arguments; a missing one without default is a TypeError. *)
Definition bind_options (d : decorator) (kw : dict) : res dict :=
  mapM (fun o => match lookup (fst o) kw, snd o with Some v, _ => Ok (fst o, v) | None, Some v => Ok (fst o, v) | None, None => Err TypeError end) (options d).
(** A call with positional arguments [pos] and keyword arguments [kw]. *)
Definition call (d : decorator) (pos : list nat) (kw : dict) : res result :=
  f <- match pos, lookup (first d) kw with
       | [], None => Ok None
       | [], Some (VFun f) => Ok (Some f)
       | [], Some _ => Err TypeError
       | [f], None => Ok (Some f)
       | _, _ => Err TypeError
       end ;;
  let e := List.filter (fun x => negb (known d (fst x))) kw in
  if negb (extra d) && negb (match e with [] => true | _ => false end) then Err TypeError else
  o <- bind_options d kw ;;
  match f with
  | None => Ok (Partial (o ++ e))
  | Some f => rmap Wrapped (wrap d f o e)
  end.
(** Calling the partial object with decorator [d] and keyword arguments [kw0]. *)
Definition call_partial (d : decorator) (kw0 : dict) (pos : list nat) (kw : dict) : res result := call d pos (merge kw0 kw).
(** A partial object called with keyword arguments only, once for every entry of [kws], and then with the function. *)
Fixpoint stages (d : decorator) (kw0 : dict) (kws : list dict) (f : nat) : res result :=
  match kws with
  | [] => call_partial d kw0 [f] []
  | kw :: kws => r <- call_partial d kw0 [] kw ;; match r with Partial kw1 => stages d kw1 kws f | Wrapped _ => Err TypeError end
  end.
