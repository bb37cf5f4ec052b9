(** Model of the configuration by environment variables: equinox/_config.py lines 1-30, and of its uses in equinox/internal/_getkey.py lines 37-43 and
    equinox/_errors.py lines 146-147 and 291-294.

    Simplifications. The environment is a function from names to byte strings; [int] of Python is modelled for strings of ASCII characters (a character
    above 127 is neither a space nor a digit) with at most 4300 digits. Warnings are a flag. *)
From Verif Require Export Base.
From Coq Require Export String Ascii ZArith.
Local Open Scope string_scope.
Local Open Scope list_scope.
Local Open Scope Z_scope.

(** [str.isspace] for ASCII. *)
Definition is_space (c : ascii) : bool := let n := nat_of_ascii c in ((9 <=? n) && (n <=? 13) || (28 <=? n) && (n <=? 32))%nat.
Definition digit (c : ascii) : option Z := let n := nat_of_ascii c in if ((48 <=? n) && (n <=? 57))%nat then Some (Z.of_nat n - 48) else None.
Fixpoint lstrip (l : list ascii) : list ascii := match l with [] => [] | c :: l' => if is_space c then lstrip l' else l end.
Definition strip (l : list ascii) : list ascii := rev (lstrip (rev (lstrip l))).
(** The digits after the first one; an underscore must be followed by a digit. *)
Fixpoint more_digits (acc : Z) (l : list ascii) : res Z :=
  match l with
  | [] => Ok acc
  | c :: l =>
      if Ascii.eqb c "_" then match l with d :: l => match digit d with Some v => more_digits (10 * acc + v) l | None => Err ValueError end | [] => Err ValueError end
      else match digit c with Some v => more_digits (10 * acc + v) l | None => Err ValueError end
  end.
Definition number (l : list ascii) : res Z := match l with [] => Err ValueError | c :: l => match digit c with Some v => more_digits v l | None => Err ValueError end end.
(** [int(s)] *)
Definition py_int (s : string) : res Z :=
  match strip (list_ascii_of_string s) with
  | [] => Err ValueError
  | c :: l => if Ascii.eqb c "-" then rmap Z.opp (number l) else if Ascii.eqb c "+" then number l else number (c :: l)
  end.

Record config := mk_config { on_error : string; warned : bool; frames : Z; seed : option Z }.
(** _config.py, in order. *)
Definition load (env : string -> option string) : res config :=
  let e := match env "EQX_ON_ERROR" with Some s => s | None => "raise" end in
  if negb (existsb (String.eqb e) ["raise"; "breakpoint"; "nan"]) then Err ValueError else
  fr <- match env "EQX_ON_ERROR_BREAKPOINT_FRAMES" with None => Ok 1 | Some s => py_int s end ;;
  sd <- match env "EQX_GETKEY_SEED" with None => Ok None | Some s => rmap Some (py_int s) end ;;
  Ok (mk_config e (String.eqb e "breakpoint") fr sd).

(** The seed of [GetKey]: [arg] is the argument if it is given; [random] is the number drawn between 0 and 2^31 - 1. *)
Definition getkey_seed (c : config) (arg : option (option Z)) (random : Z) : Z :=
  match match arg with Some s => s | None => seed c end with Some s => s | None => random end.
(** What [error_if] does for an error, with the number of frames shown by the debugger. *)
Inductive action := Raise | Nan | Breakpoint (num_frames : Z).
Definition error_action (c : config) (arg : string) : res action :=
  if String.eqb arg "default" || existsb (String.eqb arg) ["raise"; "breakpoint"; "nan"] then
    let a := if String.eqb arg "default" then on_error c else arg in
    if String.eqb a "raise" then Ok Raise else if String.eqb a "breakpoint" then Ok (Breakpoint (frames c)) else if String.eqb a "nan" then Ok Nan else Err AssertionError
  else Err RuntimeError.
