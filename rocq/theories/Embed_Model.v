(** Model of Embedding: equinox/nn/_embedding.py lines 20-105.

    - An array is its shape and its entries by multi-index. The library's [weight[x]] for a scalar [x], [getitem], and [jrandom.normal] are
      arbitrary functions; the theorems assume of them what they need. dtypes are an arbitrary type.
    - Array-like values ([is_array_like], equinox/_filters.py lines 26-32) are their shape and, for scalars, an element of an arbitrary type [S].
    - [named_scope] and the ignored [key] argument of calls are left out. *)
From Verif Require Export Base.
From Coq Require Export ZArith.
Local Open Scope nat_scope.
Local Open Scope list_scope.

Section Embed.
  Variables (V D Key S : Type) (default_dtype : D).
  Record arr := { ashape : list nat; aentry : list nat -> V }.
  Variable normal : Key -> nat -> nat -> D -> arr.
  Variable getitem : arr -> S -> res arr.
  Record embedding := { num_embeddings : Z; embedding_size : Z; eweight : arr }.
  Definition shape_is (s : list nat) (m n : Z) : bool :=
    match s with [a; b] => Z.eqb (Z.of_nat a) m && Z.eqb (Z.of_nat b) n | _ => false end.
  (** Lines 51-82. *)
  Definition make_embedding (num emb : option Z) (weight : option arr) (dtype : option D) (key : option Key) : res embedding :=
    let d := match dtype with Some d => d | None => default_dtype end in
    match weight with
    | None =>
        match num, emb, key with
        | Some m, Some n, Some k =>
            if Z.ltb m 0 then Err ValueError else
            if Z.ltb n 0 then Err ValueError else
            Ok {| num_embeddings := m; embedding_size := n; eweight := normal k (Z.to_nat m) (Z.to_nat n) d |}
        | _, _, _ => Err ValueError
        end
    | Some w =>
        if negb (Nat.eqb (length (ashape w)) 2) then Err ValueError else
        let m := match num with Some m => m | None => Z.of_nat (nth 0 (ashape w) 0) end in
        let n := match emb with Some n => n | None => Z.of_nat (nth 1 (ashape w) 0) end in
        if negb (shape_is (ashape w) m n) then Err ValueError else
        Ok {| num_embeddings := m; embedding_size := n; eweight := w |}
    end.

  Inductive arg := Scalar (s : S) | Shaped (shape : list nat) | NotArrayLike.
  (** Lines 99-105. *)
  Definition call_embedding (e : embedding) (x : arg) : res arr :=
    match x with
    | Scalar s => getitem (eweight e) s
    | Shaped _ | NotArrayLike => Err ValueError
    end.
End Embed.
