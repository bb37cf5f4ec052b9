(** Model of RotaryPositionalEmbedding: equinox/nn/_embedding.py lines 16-17, 165-255.

    - Numbers: any type with the operations of a ring. [cos]/[sin] of [t * theta^(-2j/n)] cast to the
      dtype are arbitrary functions of (embedding_size, theta, dtype, t, j); entry (t, j) does not
      depend on how many rows [end] are computed.
    - The cache is the module-level dictionary; [eqx.clear_caches] empties it.
    - Arrays are lists of rows; the final cast to [x.dtype] and promotion errors are not modelled. *)
From Verif Require Export Base.
Local Open Scope nat_scope.
Local Open Scope list_scope.

Section Rope.
  Variables (V Th D : Type).
  Variables (add mul : V -> V -> V) (opp : V -> V).
  Variables (fcos fsin : nat -> Th -> D -> nat -> nat -> V).
  Variable d_eqb : D -> D -> bool.
  Record rope := { r_size : Z; r_theta : Th; r_dtype : D }.
  (** Lines 169-173. *)
  Definition make (size : Z) (th : Th) (d : D) : res rope :=
    if (size <? 0)%Z then Err ValueError else if negb (size mod 2 =? 0)%Z then Err ValueError else Ok {| r_size := size; r_theta := th; r_dtype := d |}.
  Definition table := list (list V).
  (** Lines 181-193: [end] rows of [size/2] columns. *)
  Definition precompute (n e : nat) (th : Th) (d : D) : table * table :=
    (map (fun t => map (fun j => fcos n th d t j) (seq 0 (n / 2))) (seq 0 e),
     map (fun t => map (fun j => fsin n th d t j) (seq 0 (n / 2))) (seq 0 e)).
  Definition cache := list (nat * D * (table * table)).
  Definition key_eqb (n : nat) (d : D) (e : nat * D * (table * table)) : bool := Nat.eqb n (fst (fst e)) && d_eqb d (snd (fst e)).
  Definition get (c : cache) (n : nat) (d : D) : option (table * table) := option_map snd (find (key_eqb n d) c).
  Definition put (c : cache) (n : nat) (d : D) (v : table * table) : cache := (n, d, v) :: List.filter (fun e => negb (key_eqb n d e)) c.
  (** Lines 175-178, one row. *)
  Definition rotate_half (row : list V) : list V := let h := length row / 2 in map opp (skipn h row) ++ firstn h row.
  Fixpoint zip {X Y Z} (f : X -> Y -> Z) (a : list X) (b : list Y) : list Z :=
    match a, b with x :: a', y :: b' => f x y :: zip f a' b' | _, _ => [] end.
  Definition combine_row (x c s : list V) : list V := zip add (zip mul x (c ++ c)) (zip mul (rotate_half x) (s ++ s)).
  (** Lines 196-255. [x]: rows, all of length [cols]. *)
  Definition call (r : rope) (c : cache) (cols : nat) (x : list (list V)) : res (list (list V)) * cache :=
    let n := length x in
    if negb (Z.of_nat cols =? r_size r)%Z then (Err ValueError, c) else
    let c1 := match get c cols (r_dtype r) with Some _ => c | None => put c cols (r_dtype r) (precompute cols n (r_theta r) (r_dtype r)) end in
    match get c1 cols (r_dtype r) with
    | None => (Err KeyError, c1)
    | Some (fc, fs) =>
        let '(c2, fc', fs') := if length fc <? n then let v := precompute cols n (r_theta r) (r_dtype r) in (put c1 cols (r_dtype r) v, fst v, snd v) else (c1, fc, fs) in
        (Ok (zip (fun row cs => combine_row row (fst cs) (snd cs)) x (List.combine (firstn n fc') (firstn n fs'))), c2)
    end.
  (** A program: calls, and [clear_caches]. *)
  Inductive action := Call (r : rope) (cols : nat) (x : list (list V)) | Clear.
  Fixpoint after (h : list action) (c : cache) : cache :=
    match h with
    | [] => c
    | Call r cols x :: h' => after h' (snd (call r c cols x))
    | Clear :: h' => after h' []
    end.
End Rope.
