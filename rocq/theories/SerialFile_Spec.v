(** What saving to a named file promises. *)
From Verif Require Export SerialFile_Model Serial_Spec.
Local Open Scope string_scope.
Local Open Scope list_scope.

Fixpoint dotless (s : string) : Prop := match s with EmptyString => True | String c s' => c <> "."%char /\ dotless s' end.
(** A file name with an extension: something, a dot, something without dots. *)
Definition extended (n : string) : Prop := exists a b, n = (a ++ "." ++ b)%string /\ a <> "" /\ b <> "" /\ dotless b.
(** The path of a file [n] in the directory [dir]. *)
Definition at_dir (r : nat) (dir : list string) (n : string) : path := {| root := r; parts := dir ++ [n] |}.

(** ** The leaves of a tree in order, each with its path and the function that saves it. *)
Section Jobs.
  Variable isl : obj -> bool.
  Fixpoint leaf_paths (p : list nat) (t : obj) : list (list nat * obj) :=
    if isl t then [(p, t)] else
    match t with
    | Leaf _ => [(p, t)]
    | TNone => []
    | Node _ cs => (fix go (i : nat) (l : list obj) := match l with [] => [] | c :: l' => leaf_paths (p ++ [i]) c ++ go (S i) l' end) 0 cs
    end.
  Fixpoint jobs (p : list nat) (spec : tree ser) (t : obj) : list (list nat * res (list record)) :=
    match spec, t with
    | Leaf h, _ => map (fun qx => (p ++ fst qx, h (snd qx))) (leaf_paths [] t)
    | Node _ ts, Node _ cs =>
        (fix go (i : nat) (l : list (tree ser)) (r : list obj) :=
           match l, r with a :: l', b :: r' => jobs (p ++ [i]) a b ++ go (S i) l' r' | _, _ => [] end) 0 ts cs
    | _, _ => []
    end.
End Jobs.
(** All of [js] succeed and write [w] altogether. *)
Inductive all_done {P} : list (P * res (list record)) -> file -> Prop :=
| AD_nil : all_done [] []
| AD_cons p r js w : all_done js w -> all_done ((p, Ok r) :: js) (r ++ w).
