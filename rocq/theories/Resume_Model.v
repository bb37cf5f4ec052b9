(** Model of two documented ways of resuming: a skeleton of the model is made with [filter_eval_shape] and filled from a
    file (equinox/_serialisation.py lines 292-307, the example in the documentation of [tree_deserialise_leaves]); and
    hyperparameters on the first line of the file, the leaves behind it (examples/serialisation.ipynb). Composed of the
    models of [filter_eval_shape] (equinox/_eval_shape.py) and of serialisation.

    - Weak types are not distinguished.
    - A file with a first line is a list of characters and records; [json] is an arbitrary pair of functions.
    - The file of the second example is a buffer; opening it by name is modelled in SerialFile_Model. *)
From Verif Require Export Closure_Model SerialFile_Model.
Local Open Scope list_scope.

(** ** Leaves of Serial_Model as leaves of Closure_Model *)
Definition is_jax (a : leaf) : bool := match a with JArr _ => true | _ => false end.
Definition is_shape (a : leaf) : bool := match a with SDS _ _ => true | _ => false end.
Definition struct_of (a : leaf) : list nat * dty :=
  match a with JArr x => (sh x, dt x) | SDS s d => (s, d) | _ => ([], DObj) end.
Definition shape_struct (s : list nat * dty) : leaf := SDS (fst s) (snd s).

Section Resume.
  Variable x64 : bool.
  Variable cast : dty -> dty -> Z -> Z.
  Variable ctor : target -> dty -> Z -> res Z.
  Variable trace : @flat_fn leaf -> list (list nat * dty) -> res (@jaxpr leaf * list (list nat * dty) * @pydata leaf).
  Variable isl : obj -> bool.

  (** _serialisation.py line 301. *)
  Definition skeleton (call : obj -> obj -> obj -> res obj) (fn args kwargs : obj) : res obj :=
    eval_shape is_jax is_shape struct_of shape_struct trace call fn args kwargs.
  (** Lines 297-302: [load_path] is given or not. *)
  Definition run (call : obj -> obj -> obj -> res obj) (fn args kwargs : obj) (d : disk) (load_path : option path) : pres obj :=
    match load_path with
    | None => match call fn args kwargs with Ok m => POk m | Err e => PRaise e end
    | Some p =>
        match skeleton call fn args kwargs with
        | Ok like => load isl d p (Leaf (default_des x64 cast ctor)) like
        | Err e => PRaise e
        end
    end.

  (** ** examples/serialisation.ipynb *)
  Definition item := (ascii + record)%type.
  Definition newline : ascii := "010"%char.
  Variable H : Type.
  Variable dumps : H -> string.
  Variable loads : string -> res H.
  (** [f.write((hyperparam_str + "\n").encode()); eqx.tree_serialise_leaves(f, model)] *)
  Definition save_both (h : H) (model : obj) : pres (list item) :=
    match serialise isl (Leaf default_ser) model with
    | POk f => POk (map inl (list_ascii_of_string (dumps h) ++ [newline]) ++ map inr f)
    | PPath p => PPath p
    | PRaise e => PRaise e
    end.
  (** [f.readline()]: up to the first newline, which is kept; bytes of an array are taken not to contain one. *)
  Fixpoint readline (f : list item) : list ascii * list item :=
    match f with
    | inl c :: f' => if Ascii.eqb c newline then ([c], f') else let '(l, f'') := readline f' in (c :: l, f'')
    | inr _ :: _ => ([], f)
    | [] => ([], [])
    end.
  Definition to_file (f : list item) : file := map (fun i => match i with inl _ => Junk | inr r => r end) f.
  Definition load_both (make : H -> res obj) (f : list item) : pres obj :=
    let '(line, f') := readline f in
    match loads (string_of_list_ascii line) with
    | Err e => PRaise e
    | Ok h =>
        match make h with
        | Err e => PRaise e
        | Ok like =>
            match deserialise isl (Leaf (default_des x64 cast ctor)) like (to_file f') with
            | POk (m, _) => POk m
            | PPath p => PPath p
            | PRaise e => PRaise e
            end
        end
    end.
End Resume.
