(** Model of [Module] instances: equinox/_module.py lines 501-567 (construction), 619-637
    (bound methods), 760-831 (the mutable class used during construction), 838-913
    (flattening), 1109-1143 ([module_update_wrapper]).

    - Attribute names are numbers; Python values are an arbitrary type [V].
    - An instance is its [__dict__]. A class is its list of dataclass fields, what it (and its
      bases) define under each attribute name, and the [__check_init__] methods along its MRO.
    - User code ([__init__], [__post_init__], [__check_init__]) is an arbitrary finite program
      that reads and assigns attributes of [self], may catch exceptions of assignments, and
      returns or raises. It does not go behind the back of [__setattr__] (no
      [object.__setattr__], no [self.__dict__]).
    - Warnings are dropped. *)
From Verif Require Export Base.

Definition name := nat.

Section Assoc.
  Context {V : Type}.
  (** [__dict__], in insertion order. *)
  Definition attrs := list (name * V).
  Fixpoint aget (d : attrs) (n : name) : option V :=
    match d with
    | [] => None
    | (m, v) :: d' => if Nat.eqb m n then Some v else aget d' n
    end.
  Fixpoint aset (d : attrs) (n : name) (v : V) : attrs :=
    match d with
    | [] => [(n, v)]
    | (m, w) :: d' => if Nat.eqb m n then (m, v) :: d' else (m, w) :: aset d' n v
    end.
End Assoc.
Arguments attrs : clear implicits.

Definition mem (n : name) (l : list name) : bool := existsb (Nat.eqb n) l.

(** [dataclasses.FrozenInstanceError] (a subclass of [AttributeError]). *)
Definition FrozenInstanceError : exn := OtherError 2.

Section Module.
  Context {V : Type}.

  (** What a class attribute lookup finds: nothing; something that an entry of [__dict__] takes
      precedence over (a value, a method); or a property without setter, which takes
      precedence over [__dict__] and whose getter may raise. Reading may depend on the instance. *)
  Inductive cattr :=
  | CNone
  | CVal (get : attrs V -> V)
  | CProp (get : attrs V -> res V).

  (** A dataclass field; [f_conv] is the converter of lines 124-125. *)
  Record field := { f_name : name; f_static : bool; f_conv : option (V -> res V) }.

  (** A program operating on [self]. *)
  Inductive prog :=
  | Return
  | Raise (e : exn)
  | Set_ (n : name) (v : V) (k : prog)               (* self.n = v *)
  | TrySet (n : name) (v : V) (k : option exn -> prog)   (* the same inside try/except *)
  | Get (n : name) (k : res V -> prog)               (* getattr(self, n) inside try/except *)
  | Del (n : name) (k : option exn -> prog).         (* del self.n inside try/except *)

  Variable fields : list field.
  Variable lookup : name -> cattr.

  (** [getattr(self, n)] *)
  Definition getattr (d : attrs V) (n : name) : res V :=
    match lookup n with
    | CProp g => g d
    | CVal g => match aget d n with Some v => Ok v | None => Ok (g d) end
    | CNone => match aget d n with Some v => Ok v | None => Err AttributeError end
    end.
  (** [object.__setattr__(self, n, v)] *)
  Definition obj_setattr (d : attrs V) (n : name) (v : V) : res (attrs V) :=
    match lookup n with CProp _ => Err AttributeError | _ => Ok (aset d n v) end.
  (** [n in dir(self)] *)
  Definition in_dir (d : attrs V) (n : name) : bool :=
    match lookup n with
    | CNone => match aget d n with Some _ => true | None => false end
    | _ => true
    end.

  Definition field_names : list name := map f_name fields.

  (** [isinstance(value, BoundMethod) and value.__self__ is self] *)
  Variable own_method : V -> bool.

  (** [__setattr__] during construction: lines 778-818. [allowed] is [field_names] of lines
      770-773. *)
  Definition init_setattr (allowed : list name) (d : attrs V) (n : name) (v : V) : res (attrs V) :=
    if mem n allowed then
      if own_method v then Err ValueError else obj_setattr d n v
    else Err AttributeError.
  (** [__setattr__] of a frozen dataclass, for an instance of exactly this class. *)
  Definition frozen_setattr (d : attrs V) (n : name) (v : V) : res (attrs V) :=
    Err FrozenInstanceError.

  (** Running user code with a given [__setattr__]. [__delattr__] is that of a frozen dataclass
      both during and after construction. *)
  Section Run.
    Variable setattr : attrs V -> name -> V -> res (attrs V).
    Fixpoint run (p : prog) (d : attrs V) : attrs V * res unit :=
      match p with
      | Return => (d, Ok tt)
      | Raise e => (d, Err e)
      | Set_ n v k => match setattr d n v with Ok d' => run k d' | Err e => (d, Err e) end
      | TrySet n v k =>
          match setattr d n v with Ok d' => run (k None) d' | Err e => run (k (Some e)) d end
      | Get n k => run (k (getattr d n)) d
      | Del n k => run (k (Some FrozenInstanceError)) d
      end.
  End Run.

  (** The [__init__] of the class: written by the user, or generated by [dataclass]: the latter
      stores the arguments and defaults with [object.__setattr__] (the class is frozen) and then
      calls [__post_init__] if there is one. *)
  Inductive init :=
  | Custom (p : prog)
  | Generated (stores : list (name * V)) (post : option prog).

  Fixpoint store_all (d : attrs V) (l : list (name * V)) : attrs V * res unit :=
    match l with
    | [] => (d, Ok tt)
    | (n, v) :: l' => match obj_setattr d n v with Ok d' => store_all d' l' | Err e => (d, Err e) end
    end.
  Definition run_init (i : init) : attrs V * res unit :=
    match i with
    | Custom p => run (init_setattr field_names) p []
    | Generated st post =>
        match store_all [] st with
        | (d, Ok _) => match post with
                       | Some p => run (init_setattr field_names) p d
                       | None => (d, Ok tt)
                       end
        | r => r
        end
    end.

  (** What happens during construction, for stating the order. *)
  Inductive event := EInit | EConvert (n : name) | EFreeze | ECheck (kls : nat).

  (** Lines 517-529. *)
  Fixpoint run_converters (fs : list field) (d : attrs V) : list event * res (attrs V) :=
    match fs with
    | [] => ([], Ok d)
    | f :: fs' =>
        match f_conv f with
        | None => run_converters fs' d
        | Some conv =>
            match getattr d (f_name f) with
            | Err AttributeError => run_converters fs' d
            | Err e => ([], Err e)
            | Ok v =>
                match (w <- conv v ;; init_setattr field_names d (f_name f) w) with
                | Ok d' => let '(t, r) := run_converters fs' d' in (EConvert (f_name f) :: t, r)
                | Err e => ([EConvert (f_name f)], Err e)
                end
            end
        end
    end.

  (** Lines 531-542. *)
  Definition missing (d : attrs V) : list name :=
    List.filter (fun n => negb (in_dir d n)) field_names.

  (** Lines 544-550: only reads. *)
  Fixpoint read_static (fs : list field) (d : attrs V) : res unit :=
    match fs with
    | [] => Ok tt
    | f :: fs' => if f_static f then _ <- getattr d (f_name f) ;; read_static fs' d else read_static fs' d
    end.

  (** Lines 560-566. [checks] lists the classes of the MRO that define [__check_init__]. *)
  Fixpoint run_checks (checks : list (nat * prog)) (d : attrs V) : list event * res unit :=
    match checks with
    | [] => ([], Ok tt)
    | (c, p) :: checks' =>
        match snd (run frozen_setattr p d) with
        | Ok _ => let '(t, r) := run_checks checks' d in (ECheck c :: t, r)
        | Err e => ([ECheck c], Err e)
        end
    end.

  (** [_ActualModuleMeta.__call__], lines 501-567, for a class that is not abstract. *)
  Definition construct (i : init) (checks : list (nat * prog)) : list event * res (attrs V) :=
    match run_init i with
    | (_, Err e) => ([EInit], Err e)
    | (d, Ok _) =>
        match run_converters fields d with
        | (t1, Err e) => (EInit :: t1, Err e)
        | (t1, Ok d1) =>
            match missing d1 with
            | _ :: _ => (EInit :: t1, Err ValueError)
            | [] =>
                match read_static fields d1 with
                | Err e => (EInit :: t1, Err e)
                | Ok _ =>
                    let '(t2, r) := run_checks checks d1 in
                    (EInit :: t1 ++ EFreeze :: t2, rmap (fun _ => d1) r)
                end
            end
        end
    end.

  (** ** Flattening *)

  (** [_wrapper_field_names], lines 655-661: five reserved names. [worder] is the order in which
      Python iterates over this set (arbitrary but fixed within a process). *)
  Variable worder : list name.

  (** [_FlattenedData], lines 838-844. *)
  Record aux := {
    dyn_names : list name;
    static_names : list name; static_values : list V;
    wrap_names : list name; wrap_values : list V }.

  (** Lines 866-883. *)
  Fixpoint split_fields (fs : list field) (d : attrs V) : list (name * V) * list (name * V) :=
    match fs with
    | [] => ([], [])
    | f :: fs' =>
        let '(dyn, st) := split_fields fs' d in
        match aget d (f_name f) with
        | None => (dyn, st)
        | Some v => if f_static f then (dyn, (f_name f, v) :: st) else ((f_name f, v) :: dyn, st)
        end
    end.
  (** Lines 884-889. [getattr] with a default only catches [AttributeError]. *)
  Fixpoint wrappers (ws : list name) (d : attrs V) : res (list (name * V)) :=
    match ws with
    | [] => Ok []
    | w :: ws' =>
        match getattr d w with
        | Ok v => rmap (cons (w, v)) (wrappers ws' d)
        | Err AttributeError => wrappers ws' d
        | Err e => Err e
        end
    end.
  (** [_flatten_module], lines 855-897 (without keys). *)
  Definition flatten (d : attrs V) : res (list V * aux) :=
    let '(dyn, st) := split_fields fields d in
    ws <- wrappers worder d ;;
    Ok (map snd dyn,
        {| dyn_names := map fst dyn;
           static_names := map fst st; static_values := map snd st;
           wrap_names := map fst ws; wrap_values := map snd ws |}).
  (** ... and with keys, line 881. *)
  Definition flatten_with_keys (d : attrs V) : res (list (name * V) * aux) :=
    let '(dyn, st) := split_fields fields d in
    ws <- wrappers worder d ;;
    Ok (dyn,
        {| dyn_names := map fst dyn;
           static_names := map fst st; static_values := map snd st;
           wrap_names := map fst ws; wrap_values := map snd ws |}).

  Fixpoint obj_setattrs (d : attrs V) (l : list (name * V)) : res (attrs V) :=
    match l with
    | [] => Ok d
    | (n, v) :: l' => d' <- obj_setattr d n v ;; obj_setattrs d' l'
    end.
  (** [_unflatten_module], lines 900-913. [zip] stops at the shorter list. *)
  Definition unflatten (a : aux) (vs : list V) : res (attrs V) :=
    d1 <- obj_setattrs [] (List.combine (dyn_names a) vs) ;;
    d2 <- obj_setattrs d1 (List.combine (static_names a) (static_values a)) ;;
    obj_setattrs d2 (List.combine (wrap_names a) (wrap_values a)).

  (** ** [_module_update_wrapper], lines 1109-1143, after [wrapped] has been determined.
      [gw n] is [getattr(wrapped, n)]. *)
  Fixpoint copy_wrapper (ws : list name) (gw : name -> res V) (d : attrs V) : attrs V * res unit :=
    match ws with
    | [] => (d, Ok tt)
    | w :: ws' =>
        match gw w with
        | Ok v => match init_setattr worder d w v with
                  | Ok d' => copy_wrapper ws' gw d'
                  | Err e => (d, Err e)
                  end
        | Err AttributeError => copy_wrapper ws' gw d
        | Err e => (d, Err e)
        end
    end.
  (** [has_wrapped]: the class defines [__wrapped__] as a property (line 1113). The result is the
      new object (line 1143); its class is restored in every case (line 1142). *)
  Definition update_wrapper (has_wrapped : bool) (gw : name -> res V) (d : attrs V) : res (attrs V) :=
    if has_wrapped then
      '(vs, a) <- flatten d ;;
      d1 <- unflatten a vs ;;
      match copy_wrapper worder gw d1 with
      | (d2, Ok _) => Ok d2
      | (_, Err e) => Err e
      end
    else Err ValueError.
End Module.
Arguments field : clear implicits.
Arguments prog : clear implicits.
Arguments init : clear implicits.
Arguments cattr : clear implicits.
Arguments aux : clear implicits.
