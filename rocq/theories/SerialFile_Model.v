(** Model of saving to and loading from named files: equinox/_serialisation.py lines 143-162, 235-245, 318-334.

    - Strings are split into paths as [pathlib.PurePosixPath] does (Python up to 3.13); [..] stays a part of the path, and there are no links.
    - The file system is a set of directories, fixed, and a map from paths to contents; permissions and full disks are not modelled. Contents are lists of records as in Serial_Model.
    - A record is written at once or not at all; a user's function that fails has written nothing. File-like objects are written at their end and read from their start. *)
From Verif Require Export Serial_Model.
From Coq Require Export Ascii String.
Local Open Scope string_scope.
Local Open Scope list_scope.

(** ** pathlib *)
(** [root]: the number of slashes kept at the start. *)
Record path := { root : nat; parts : list string }.
Lemma path_eq_dec (p q : path) : {p = q} + {p <> q}.
Proof. decide equality; [apply (list_eq_dec string_dec)|apply Nat.eq_dec]. Defined.
Definition slash (c : ascii) : bool := Ascii.eqb c "/".
(** [s.split("/")] *)
Fixpoint split_path (s : string) : list string :=
  match s with
  | EmptyString => [""]
  | String c s' => if slash c then "" :: split_path s' else match split_path s' with h :: t => String c h :: t | [] => [] end
  end.
(** Two leading slashes are kept; one, or more than two, mean one. *)
Definition root_of (s : string) : nat :=
  match s with
  | String c1 s1 =>
      if slash c1 then
        match s1 with
        | String c2 s2 => if slash c2 then match s2 with String c3 _ => if slash c3 then 1 else 2 | EmptyString => 2 end else 1
        | EmptyString => 1
        end
      else 0
  | EmptyString => 0
  end.
Definition parse (s : string) : path :=
  {| root := root_of s; parts := List.filter (fun x => negb (String.eqb x "" || String.eqb x ".")) (split_path s) |}.
Definition name (p : path) : string := last (parts p) "".
(** The parts before and after the last dot. *)
Fixpoint rdot (s : string) : option (string * string) :=
  match s with
  | EmptyString => None
  | String c s' =>
      match rdot s' with
      | Some (a, b) => Some (String c a, b)
      | None => if Ascii.eqb c "." then Some ("", s') else None
      end
  end.
(** A dot at the start or at the end of the name does not count. *)
Definition suffix (p : path) : string :=
  match rdot (name p) with Some (String _ _, String _ _ as b) => String "." b | _ => "" end.
(** [path.with_suffix(".eqx")] of a path without a suffix. *)
Definition add_eqx (p : path) : res path :=
  if String.eqb (name p) "" then Err ValueError
  else Ok {| root := root p; parts := removelast (parts p) ++ [(name p ++ ".eqx")%string] |}.
(** Lines 143-148. *)
Definition with_suffix (p : path) : res path := if String.eqb (suffix p) "" then add_eqx p else Ok p.

(** ** Opening files *)
Record disk := { dirs : path -> bool; files : path -> option file }.
Definition parent (p : path) : path := {| root := root p; parts := removelast (parts p) |}.
Definition not_found : exn := OtherError 2.
Definition is_a_directory : exn := OtherError 3.
(** [open(p, "wb")] empties the file. *)
Definition store (d : disk) (p : path) (f : file) : disk :=
  {| dirs := dirs d; files := fun q => if path_eq_dec q p then Some f else files d q |}.
Definition open_w (d : disk) (p : path) : res disk :=
  if dirs d p then Err is_a_directory else if negb (dirs d (parent p)) then Err not_found else Ok (store d p []).
Definition open_r (d : disk) (p : path) : res file :=
  if dirs d p then Err is_a_directory else match files d p with Some f => Ok f | None => Err not_found end.

(** ** What has been written, also when an error occurs: as [omap] and [omap2] of Serial_Model. *)
Section Written.
  Variable isl : obj -> bool.
  Definition written := (file * option (list nat))%type.
  Section Leaf.
    Variable h : ser.
    Definition wleaf (p : list nat) (x : obj) : written := match h x with Ok r => (r, None) | Err _ => ([], Some p) end.
    Section Kids.
      Variable go : list nat -> obj -> written.
      Fixpoint wkids (p : list nat) (i : nat) (cs : list obj) : written :=
        match cs with
        | [] => ([], None)
        | c :: cs' =>
            match go (p ++ [i]) c with
            | (f, None) => let '(f', e) := wkids p (S i) cs' in (f ++ f', e)
            | (f, Some q) => (f, Some q)
            end
        end.
    End Kids.
    Fixpoint wmap (p : list nat) (t : obj) : written :=
      if isl t then wleaf p t else
      match t with Leaf _ => wleaf p t | TNone => ([], None) | Node _ cs => wkids wmap p 0 cs end.
  End Leaf.
  Section Kids2.
    Variable go : list nat -> tree ser -> obj -> written.
    Fixpoint wkids2 (p : list nat) (i : nat) (ts : list (tree ser)) (cs : list obj) : written :=
      match ts, cs with
      | t :: ts', c :: cs' =>
          match go (p ++ [i]) t c with
          | (f, None) => let '(f', e) := wkids2 p (S i) ts' cs' in (f ++ f', e)
          | (f, Some q) => (f, Some q)
          end
      | _, _ => ([], None)
      end.
  End Kids2.
  Fixpoint wmap2 (p : list nat) (t : tree ser) (x : obj) : written :=
    match t, x with
    | Leaf h, _ => let '(f, e) := wmap h [] x in (f, option_map (app p) e)
    | Node _ ts, Node _ cs => wkids2 wmap2 p 0 ts cs
    | _, _ => ([], None)
    end.

  (** Lines 235-245 on an open file that holds [f]: what it holds afterwards. *)
  Definition write (spec : tree ser) (t : obj) (f : file) : file * pres unit :=
    if negb (is_prefix spec t) then (f, PRaise ValueError)
    else match wmap2 [] spec t with (w, None) => (f ++ w, POk tt) | (w, Some q) => (f ++ w, PPath q) end.

  (** [tree_serialise_leaves(p, t, spec, is_leaf)] with a path: the name is completed and the file opened first. *)
  Definition save (d : disk) (p : path) (spec : tree ser) (t : obj) : disk * pres unit :=
    match with_suffix p with
    | Err e => (d, PRaise e)
    | Ok q =>
        match open_w d q with
        | Err e => (d, PRaise e)
        | Ok d' => let '(f, r) := write spec t [] in (store d' q f, r)
        end
    end.
  (** [tree_deserialise_leaves(p, like, spec, is_leaf)] with a path. *)
  Definition load (d : disk) (p : path) (spec : tree des) (like : obj) : pres obj :=
    match with_suffix p with
    | Err e => PRaise e
    | Ok q =>
        match open_r d q with
        | Err e => PRaise e
        | Ok f => match deserialise isl spec like f with POk (o, _) => POk o | PPath x => PPath x | PRaise e => PRaise e end
        end
    end.
End Written.
