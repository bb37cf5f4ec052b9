(** Model of Dropout: equinox/nn/_dropout.py lines 26-97.

    - Numbers are exact rationals; arrays are flat lists. [jrandom.bernoulli] is an arbitrary function of
      key, probability and size. Dividing by zero gives zero here and infinity in the code; the entries
      for which that matters are dropped (see [C41_certain]).
    - Deprecation warnings are counted, gradients ([lax.stop_gradient]) are not modelled. *)
From Coq Require Export QArith.
From Verif Require Export Base.
Local Open Scope list_scope.

Section Dropout.
  Variable Key : Type.
  Variable bernoulli : Key -> Q -> nat -> list bool.
  (** A Python number, or an array (after training or [tree_at]). *)
  Inductive prob := PyNum (q : Q) | ArrNum (q : Q).
  Definition value (p : prob) : Q := match p with PyNum q | ArrNum q => q end.
  Record dropout := { p : prob; inference : bool }.
  (** Lines 26-50. *)
  Definition make (p0 : prob) (inf : bool) (det : option bool) : dropout :=
    {| p := p0; inference := match det with Some d => d | None => inf end |}.
  Fixpoint select (m : list bool) (x : list Q) (q : Q) : list Q :=
    match m, x with b :: m', v :: x' => (if b then v / q else 0)%Q :: select m' x' q | _, _ => [] end.
  (** Lines 58-97. *)
  Definition call (d : dropout) (x : list Q) (key : option Key) (inf det : option bool) : res (list Q) :=
    let inf := match det with Some b => Some b | None => inf end in
    let inf := match inf with Some b => b | None => inference d end in
    let inf := match p d with PyNum q => if Qeq_bool q 0 then true else inf | ArrNum _ => inf end in
    if inf then Ok x else
    match key with
    | None => Err RuntimeError
    | Some k => let q := (1 - value (p d))%Q in Ok (select (bernoulli k q (length x)) x q)
    end.
End Dropout.
