(** Model of nextafter and prevbefore: equinox/internal/_nextafter.py lines 6-36.

    - A floating point number is its bits: a sign and a magnitude (exponent and mantissa read as one integer), or NaN. Magnitude 0 is zero,
      magnitudes below [tiny] are denormal, [top] is infinity.
    - [jnp.nextafter] (outside /repo) works on bits: towards [inf] it moves the magnitude by one, from either zero to the least denormal.
    - Comparisons are those of the hardware: with [daz] (denormals are zero, what the comment in lines 10-14 speaks of) denormals compare
      like zero.
    - Derivatives: the rules of lines 18-22 and 32-36 pass tangents through. *)
From Coq Require Import ZArith.
Local Open Scope Z_scope.

Inductive fl := NaN | Fl (neg : bool) (m : Z).

Section Nextafter.
  Variables tiny top : Z.
  Variable daz : bool.

  Definition neg_fl (x : fl) : fl := match x with NaN => NaN | Fl s m => Fl (negb s) m end.
  (** [jnp.nextafter(x, inf)] and [jnp.nextafter(x, -inf)] *)
  Definition up (x : fl) : fl :=
    match x with
    | NaN => NaN
    | Fl s m => if m =? 0 then Fl false 1 else if s then Fl true (m - 1) else if m =? top then x else Fl false (m + 1)
    end.
  Definition down (x : fl) : fl :=
    match x with
    | NaN => NaN
    | Fl s m => if m =? 0 then Fl true 1 else if s then (if m =? top then x else Fl true (m + 1)) else Fl false (m - 1)
    end.
  (** [x == 0] *)
  Definition is_zero (x : fl) : bool := match x with NaN => false | Fl _ m => if daz then m <? tiny else m =? 0 end.
  (** Lines 9-15 and 28-29. *)
  Definition nextafter (x : fl) : fl := if is_zero x then Fl false tiny else up x.
  Definition prevbefore (x : fl) : fl := if is_zero x then neg_fl (Fl false tiny) else down x.
  (** Lines 18-22 and 32-36. *)
  Definition nextafter_jvp {T} (x : fl) (t : T) : fl * T := (nextafter x, t).
  Definition prevbefore_jvp {T} (x : fl) (t : T) : fl * T := (prevbefore x, t).
End Nextafter.
