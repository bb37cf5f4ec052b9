(** Model of equinox/_serialisation.py.

    - A file is a list of records: what [np.save] wrote, one self-delimiting [.npy] block each, or
      junk. Opening files and the suffix [.eqx] (lines 143-162) are in SerialFile_Model.
    - Array entries are opaque codes (integers). dtypes: a representative list. [cast] is the
      conversion of an entry between dtypes by [jnp.asarray]; [ctor] is [type(x)(v)] for a scalar
      type, [v] being an entry of an array as Python object. Both are arbitrary.
    - NumPy/JAX behaviour relied upon: [np.save] stores [bfloat16] as raw two-byte data ("V2") and
      other extension types as raw data ("V1"), pickles arrays of objects, refuses typed PRNG keys;
      [np.load] refuses pickles; [jnp.load] is [np.load], turning "V2" into [bfloat16], then [jnp.asarray] unless that
      fails (it does for "V1"), which narrows 64-bit types unless [x64] is enabled.
    - Objects other than arrays with a [__jax_array__] method are not modelled. *)
From Verif Require Export Tree_Model.

Inductive dty := DBool | DI32 | DI64 | DU32 | DU64 | DF32 | DF64 | DC64 | DC128 | DBF16 | DF8 | DV1 | DV2 | DObj | DKey.
Lemma dty_eq_dec (a b : dty) : {a = b} + {a <> b}.
Proof. decide equality. Defined.
Record nd := { sh : list nat; dt : dty; dat : list Z }.
Inductive pykind := KBool | KInt | KFloat | KComplex.

(** Leaves. [SDS]: jax.ShapeDtypeStruct. [NGen]: NumPy scalars (with [jax.dtypes.bfloat16] for [DBF16]). *)
Inductive leaf :=
| JArr (a : nd) | NArr (a : nd) | NGen (d : dty) (v : Z) | Py (k : pykind) (v : Z)
| SDS (s : list nat) (d : dty) | Other (n : nat).
Definition obj := tree leaf.
Inductive record := Rec (a : nd) | Junk.
Definition file := list record.

(** ** NumPy and JAX *)
Definition on_disk (d : dty) : dty := match d with DBF16 => DV2 | DF8 => DV1 | d => d end.
Definition np_save (a : nd) : res record :=
  match dt a with DKey => Err TypeError | d => Ok (Rec {| sh := sh a; dt := on_disk d; dat := dat a |}) end.
(** [np.asarray] of a Python scalar. *)
Definition py_dtype (k : pykind) (v : Z) : dty :=
  match k with
  | KBool => DBool | KFloat => DF64 | KComplex => DC128
  | KInt => if ((- 2 ^ 63 <=? v) && (v <? 2 ^ 63))%Z then DI64 else if ((0 <=? v) && (v <? 2 ^ 64))%Z then DU64 else DObj
  end.
Definition eof_error : exn := OtherError 1.
Definition np_load (f : file) : res (nd * file) :=
  match f with
  | [] => Err eof_error
  | Junk :: _ => Err ValueError
  | Rec a :: f' => match dt a with DObj => Err ValueError | _ => Ok (a, f') end
  end.
Definition canon (x64 : bool) (d : dty) : dty :=
  if x64 then d else match d with DI64 => DI32 | DU64 => DU32 | DF64 => DF32 | DC128 => DC64 | d => d end.
Definition view_bf16 (a : nd) : nd := match dt a with DV2 => {| sh := sh a; dt := DBF16; dat := dat a |} | _ => a end.

Section Serial.
  Variable x64 : bool.
  Variable cast : dty -> dty -> Z -> Z.
  Inductive target := TPy (k : pykind) | TNp (d : dty).
  Variable ctor : target -> dty -> Z -> res Z.

  Definition jnp_load (f : file) : res (leaf * file) :=
    r <- np_load f ;;
    let a := view_bf16 (fst r) in
    Ok (match dt a with
        | DV1 | DV2 => NArr a
        | d => JArr {| sh := sh a; dt := canon x64 d; dat := map (cast d (canon x64 d)) (dat a) |}
        end, snd r).
  (** [out.item()]: one entry only. *)
  Definition item (a : nd) : res Z := match dat a with [v] => Ok v | _ => Err ValueError end.

  (** ** Lines 50-90: what is written for one leaf. *)
  Definition default_ser (x : obj) : res (list record) :=
    match x with
    | Leaf (JArr a) | Leaf (NArr a) => r <- np_save a ;; Ok [r]
    | Leaf (NGen d v) => r <- np_save {| sh := []; dt := d; dat := [v] |} ;; Ok [r]
    | Leaf (Py k v) => r <- np_save {| sh := []; dt := py_dtype k v; dat := [v] |} ;; Ok [r]
    | _ => Ok []
    end.
  (** Lines 93-140. [out.view(bfloat16)] of data that is not two bytes wide is an error (line 137). *)
  Definition default_des (f : file) (x : obj) : res (obj * file) :=
    match x with
    | Leaf (JArr _) | Leaf (SDS _ _) => r <- jnp_load f ;; Ok (Leaf (fst r), snd r)
    | Leaf (NArr _) => r <- np_load f ;; Ok (Leaf (NArr (fst r)), snd r)
    | Leaf (NGen d _) =>
        r <- np_load f ;;
        a <- (match d, dt (fst r) with DBF16, DV2 => Ok (view_bf16 (fst r)) | DBF16, _ => Err ValueError | _, _ => Ok (fst r) end) ;;
        v <- item a ;; v' <- ctor (TNp d) (dt a) v ;; Ok (Leaf (NGen d v'), snd r)
    | Leaf (Py k _) => r <- np_load f ;; v <- item (fst r) ;; v' <- ctor (TPy k) (dt (fst r)) v ;; Ok (Leaf (Py k v'), snd r)
    | _ => Ok (x, f)
    end.

  (** ** Results: a [TreePathError] carries a path (positions of children, from the root). *)
  Inductive pres (A : Type) := POk (a : A) | PPath (p : list nat) | PRaise (e : exn).
  Arguments POk {A}. Arguments PPath {A}. Arguments PRaise {A}.

  (** Lines 20-47 with one tree: leaves in order, in a state. Flattening, mapping and unflattening
      are written as one traversal. Exceptions of [f] are turned into [TreePathError]s. *)
  Section Ordered.
    Context {S : Type}.
    Variable isl : obj -> bool.
    Variable f : S -> obj -> res (obj * S).
    Section Kids.
      Variable go : list nat -> obj -> S -> pres (obj * S).
      Fixpoint okids (p : list nat) (i : nat) (cs : list obj) (s : S) : pres (list obj * S) :=
        match cs with
        | [] => POk ([], s)
        | c :: cs' =>
            match go (p ++ [i]) c s with
            | POk (c', s') =>
                match okids p (1 + i) cs' s' with POk (r, s'') => POk (c' :: r, s'') | PPath q => PPath q | PRaise e => PRaise e end
            | PPath q => PPath q
            | PRaise e => PRaise e
            end
        end.
    End Kids.
    Definition at_leaf (p : list nat) (x : obj) (s : S) : pres (obj * S) := match f s x with Ok r => POk r | Err _ => PPath p end.
    Fixpoint omap (p : list nat) (t : obj) (s : S) : pres (obj * S) :=
      if isl t then at_leaf p t s else
      match t with
      | Leaf _ => at_leaf p t s
      | TNone => POk (TNone, s)
      | Node k cs => match okids omap p 0 cs s with POk (r, s') => POk (Node k r, s') | PPath q => PPath q | PRaise e => PRaise e end
      end.
  End Ordered.

  (** Lines 20-47 with two trees: the first ([filter_spec]) must be a prefix of the second; this is
      checked first (line 30, [flatten_up_to]). *)
  Section Ordered2.
    Context {F S : Type}.
    Variable g : F -> obj -> S -> pres (obj * S).
    Fixpoint is_prefix (t : tree F) (x : obj) : bool :=
      match t, x with
      | Leaf _, _ => true
      | TNone, TNone => true
      | Node k cs, Node k' cs' =>
          Nat.eqb k k' && ((fix go (l : list (tree F)) (r : list obj) : bool :=
             match l, r with [], [] => true | a :: l', b :: r' => is_prefix a b && go l' r' | _, _ => false end) cs cs')
      | _, _ => false
      end.
    Section Kids2.
      Variable go : list nat -> tree F -> obj -> S -> pres (obj * S).
      Fixpoint kids2 (p : list nat) (i : nat) (ts : list (tree F)) (cs : list obj) (s : S) : pres (list obj * S) :=
        match ts, cs with
        | t :: ts', c :: cs' =>
            match go (p ++ [i]) t c s with
            | POk (c', s') =>
                match kids2 p (1 + i) ts' cs' s' with POk (r, s'') => POk (c' :: r, s'') | PPath q => PPath q | PRaise e => PRaise e end
            | PPath q => PPath q
            | PRaise e => PRaise e
            end
        | _, _ => POk ([], s)
        end.
    End Kids2.
    Fixpoint omap2 (p : list nat) (t : tree F) (x : obj) (s : S) : pres (obj * S) :=
      match t, x with
      | Leaf h, _ => match g h x s with POk r => POk r | PPath q => PPath (p ++ q) | PRaise _ => PPath p end
      | Node _ ts, Node k cs => match kids2 omap2 p 0 ts cs s with POk (r, s') => POk (Node k r, s') | PPath q => PPath q | PRaise e => PRaise e end
      | _, _ => POk (TNone, s)
      end.
  End Ordered2.

  Definition ser := obj -> res (list record).
  Definition des := file -> obj -> res (obj * file).
  (** Lines 235-245: [__serialise] returns [None], the records go to the end of the file. *)
  Definition serialise (isl : obj -> bool) (spec : tree ser) (t : obj) : pres file :=
    if negb (is_prefix spec t) then PRaise ValueError else
    match omap2 (fun (h : ser) x s => omap isl (fun s y => r <- h y ;; Ok (TNone, s ++ r)) [] x s) [] spec t [] with
    | POk (_, s) => POk s
    | PPath q => PPath q
    | PRaise e => PRaise e
    end.

  (** Lines 165-188: [type], then shape and dtype. The type of a node is its kind. *)
  Inductive ty := TyJ | TyN | TyG (d : dty) | TyP (k : pykind) | TySDS | TyO (n : nat) | TyNone | TyNode (k : nat).
  Definition type_of (x : obj) : ty :=
    match x with
    | Leaf (JArr _) => TyJ | Leaf (NArr _) => TyN | Leaf (NGen d _) => TyG d | Leaf (Py k _) => TyP k
    | Leaf (SDS _ _) => TySDS | Leaf (Other n) => TyO n | TNone => TyNone | Node k _ => TyNode k
    end.
  Lemma ty_eq_dec (a b : ty) : {a = b} + {a <> b}.
  Proof. repeat decide equality. Defined.
  Definition shape_of (x : obj) : option (list nat * dty) :=
    match x with Leaf (JArr a) | Leaf (NArr a) => Some (sh a, dt a) | Leaf (SDS s d) => Some (s, d) | _ => None end.
  Definition is_nd (x : obj) : bool := match x with Leaf (JArr _) | Leaf (NArr _) => true | _ => false end.
  Definition assert_same (new old : obj) : res obj :=
    let told := match type_of old with TySDS => TyJ | t => t end in
    if ty_eq_dec (type_of new) told then
      if is_nd new then
        match shape_of new, shape_of old with
        | Some (s, d), Some (s', d') =>
            if list_eq_dec Nat.eq_dec s s' then if dty_eq_dec d d' then Ok TNone else Err RuntimeError else Err RuntimeError
        | _, _ => Err AttributeError
        end
      else Ok TNone
    else Err RuntimeError.

  (** Lines 318-334. *)
  Definition deserialise (isl : obj -> bool) (spec : tree des) (like : obj) (f : file) : pres (obj * file) :=
    if negb (is_prefix spec like) then PRaise ValueError else
    match omap2 (fun (h : des) x s => omap isl h [] x s) [] spec like f with
    | POk (out, f') => match tmap2 isl assert_same out like with Ok _ => POk (out, f') | Err e => PRaise e end
    | PPath q => PPath q
    | PRaise e => PRaise e
    end.
End Serial.
Arguments POk {A}. Arguments PPath {A}. Arguments PRaise {A}.
