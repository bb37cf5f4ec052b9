(** Model of equinox/internal/_finalise_jaxpr.py lines 30-180 and of the evaluation of
    jaxprs it imitates.

    Simplifications: values and literals are one abstract type, types and shapes are ignored;
    what a primitive computes depends on the jaxprs among its parameters only through the
    functions they denote; [jax.make_jaxpr(fn)] (lines 119, 128, 167) is the denotation of
    [fn], that is, tracing is faithful; [get_bind_params] (line 95), which only regroups the
    parameters into leading functions and keyword parameters, is left out. *)
From Verif Require Export Base.

Section Jaxpr.
  Context {V : Type}.

  Inductive atom := Lit (v : V) | Var (x : nat).

  (** A jaxpr: constvars, invars, equations, outvars. An equation: primitive, parameters,
      inputs, outputs. A parameter: a single object or a tuple. An object: a closed jaxpr with
      its constants, an open jaxpr, a tuple inside of a tuple, or anything else. *)
  Inductive jaxpr :=
  | Jaxpr (constvars invars : list nat) (eqns : list eqn) (outs : list atom)
  with eqn :=
  | Eqn (prim : nat) (params : list param) (ins : list atom) (outvars : list nat)
  with param :=
  | PItem (i : item)
  | PTuple (is : list item)
  with item :=
  | IClosed (j : jaxpr) (consts : list V)
  | IOpen (j : jaxpr)
  | INested (is : list item)
  | IOther (v : V).

  Definition constvars_of (j : jaxpr) : list nat := let 'Jaxpr cv _ _ _ := j in cv.

  (** Meaning of a parameter as seen by a primitive. *)
  Inductive mparam :=
  | MFun (f : list V -> res (list V))                       (* closed, or open without constvars *)
  | MOpen (f : list V -> list V -> res (list V))            (* open jaxpr: constants, arguments *)
  | MTuple (ms : list mparam)
  | MOther (v : V).

  (** [prim.bind(...)] and [prim.multiple_results]. *)
  Variable bindp : nat -> list mparam -> list V -> res (list V).
  Variable multiple_results : nat -> bool.

  Definition env := list (nat * V).
  Fixpoint env_get (e : env) (x : nat) : option V :=
    match e with [] => None | (y, v) :: e' => if Nat.eqb x y then Some v else env_get e' x end.
  Definition read (e : env) (a : atom) : res V :=
    match a with
    | Lit v => Ok v
    | Var x => match env_get e x with Some v => Ok v | None => Err KeyError end
    end.
  (** [_safe_map(write, vars, vals)], lines 30-35: a difference in length fails an assertion. *)
  Fixpoint write_all (e : env) (xs : list nat) (vs : list V) : res env :=
    match xs, vs with
    | [], [] => Ok e
    | x :: xs', v :: vs' => write_all ((x, v) :: e) xs' vs'
    | _, _ => Err AssertionError
    end.
  (** Lines 101-104; a primitive without multiple results returns one value. *)
  Definition write_out (e : env) (p : nat) (outs : list nat) (ans : list V) : res env :=
    if multiple_results p then write_all e outs ans
    else match outs, ans with
         | x :: _, [v] => Ok ((x, v) :: e)
         | _, _ => Err IndexError
         end.

  (** *** Reference: [jax.core.eval_jaxpr] *)
  Section Loop.
    Variable step : env -> eqn -> res env.
    Fixpoint run_eqns (e : env) (eqns : list eqn) : res env :=
      match eqns with [] => Ok e | q :: qs => e' <- step e q ;; run_eqns e' qs end.
  End Loop.

  Fixpoint eval_jaxpr (j : jaxpr) (consts args : list V) : res (list V) :=
    let 'Jaxpr cv iv eqns outs := j in
    e0 <- write_all [] cv consts ;;
    e1 <- write_all e0 iv args ;;
    e2 <- run_eqns eval_eqn e1 eqns ;;
    mapM (read e2) outs
  with eval_eqn (e : env) (q : eqn) : res env :=
    let 'Eqn p ps ins outs := q in
    vs <- mapM (read e) ins ;;
    ans <- bindp p (map mean_param ps) vs ;;
    write_out e p outs ans
  with mean_param (p : param) : mparam :=
    match p with
    | PItem i => mean_item i
    | PTuple is => MTuple (map mean_item is)
    end
  with mean_item (i : item) : mparam :=
    match i with
    | IClosed j consts => MFun (eval_jaxpr j consts)
    | IOpen j => match constvars_of j with
                 | [] => MFun (eval_jaxpr j [])
                 | _ => MOpen (eval_jaxpr j)
                 end
    | INested is => MTuple (map mean_item is)
    | IOther v => MOther v
    end.

  (** *** The code *)

  (** [primitive_finalisations], line 72. *)
  Variable rules : nat -> option (list mparam -> list V -> res (list V)).

  (** Lines 79-105 with 38-61. *)
  Fixpoint finalise_eval (j : jaxpr) (consts args : list V) : res (list V) :=
    let 'Jaxpr cv iv eqns outs := j in
    e0 <- write_all [] cv consts ;;
    e1 <- write_all e0 iv args ;;
    e2 <- run_eqns finalise_eqn e1 eqns ;;
    mapM (read e2) outs
  with finalise_eqn (e : env) (q : eqn) : res env :=
    let 'Eqn p ps ins outs := q in
    let params := map finalise_param ps in
    let call := match rules p with Some r => r | None => bindp p end in
    vs <- mapM (read e) ins ;;
    ans <- call params vs ;;
    write_out e p outs ans
  with finalise_param (p : param) : mparam :=
    match p with
    | PItem i => maybe_finalise i
    | PTuple is => MTuple (map maybe_finalise is)
    end
  with maybe_finalise (i : item) : mparam :=
    match i with
    | IClosed j consts => MFun (finalise_eval j consts)
    | IOpen j => match constvars_of j with
                 | [] => MFun (finalise_eval j [])
                 | _ => MOpen (eval_jaxpr j)                (* line 45: unchanged *)
                 end
    | INested is => MTuple (map mean_item is)               (* not a jaxpr: unchanged *)
    | IOther v => MOther v
    end.

  (** The primitives in the jaxpr that [finalise_jaxpr] returns (those of sub-jaxprs
      included): an equation with a rule is replaced by what tracing the rule records,
      [recorded]; all others are bound again with finalised parameters. *)
  Variable recorded : nat -> list mparam -> list nat.
  Fixpoint prims_of (j : jaxpr) : list nat :=
    let 'Jaxpr _ _ eqns _ := j in concat (map prims_eqn eqns)
  with prims_eqn (q : eqn) : list nat :=
    let 'Eqn p ps _ _ := q in p :: concat (map prims_param ps)
  with prims_param (p : param) : list nat :=
    match p with PItem i => prims_item i | PTuple is => concat (map prims_item is) end
  with prims_item (i : item) : list nat :=
    match i with
    | IClosed j _ => prims_of j
    | IOpen j => prims_of j
    | INested is => concat (map prims_item is)
    | IOther _ => []
    end.

  Fixpoint finalised_prims (j : jaxpr) : list nat :=
    let 'Jaxpr _ _ eqns _ := j in concat (map fprims_eqn eqns)
  with fprims_eqn (q : eqn) : list nat :=
    let 'Eqn p ps _ _ := q in
    match rules p with
    | Some _ => recorded p (map finalise_param ps)
    | None => p :: concat (map fprims_param ps)
    end
  with fprims_param (p : param) : list nat :=
    match p with PItem i => fprims_item i | PTuple is => concat (map fprims_item is) end
  with fprims_item (i : item) : list nat :=
    match i with
    | IClosed j _ => finalised_prims j
    | IOpen j => match constvars_of j with [] => finalised_prims j | _ => prims_of j end
    | INested is => concat (map prims_item is)
    | IOther _ => []
    end.
End Jaxpr.
Arguments jaxpr : clear implicits.
Arguments eqn : clear implicits.
Arguments param : clear implicits.
Arguments item : clear implicits.
Arguments mparam : clear implicits.
Arguments atom : clear implicits.
