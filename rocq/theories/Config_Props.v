(** C134: configuration by environment variables. *)
From Coq Require Import Lia.
From Verif Require Import Base Config_Model.
Local Open Scope string_scope.
Local Open Scope list_scope.
Local Open Scope Z_scope.

(** The numbers that Python's [int] reads: digits in groups separated by single underscores. *)
Definition is_digit (c : ascii) : Prop := (48 <= nat_of_ascii c <= 57)%nat.
Definition is_ws (c : ascii) : Prop := (9 <= nat_of_ascii c <= 13 \/ 28 <= nat_of_ascii c <= 32)%nat.
Fixpoint decimal (acc : Z) (l : list ascii) : Z := match l with [] => acc | c :: l => decimal (10 * acc + (Z.of_nat (nat_of_ascii c) - 48)) l end.
Fixpoint grouped (gs : list (list ascii)) : list ascii := match gs with [] => [] | [g] => g | g :: gs => g ++ "_"%char :: grouped gs end.
Definition numeral (l : list ascii) (z : Z) : Prop := exists gs, gs <> [] /\ Forall (fun g => g <> [] /\ Forall is_digit g) gs /\ l = grouped gs /\ z = decimal 0 (List.concat gs).

Lemma digit_some c v : digit c = Some v <-> is_digit c /\ v = Z.of_nat (nat_of_ascii c) - 48.
Proof.
  unfold digit, is_digit. cbv zeta. destruct ((48 <=? nat_of_ascii c) && (nat_of_ascii c <=? 57))%nat eqn:E.
  - apply andb_true_iff in E as [E1 E2]. apply Nat.leb_le in E1, E2. split; [intros H; injection H as <-; lia|]. intros [_ ->]. reflexivity.
  - split; [discriminate|]. intros [[H1 H2] _]. apply Nat.leb_le in H1, H2. rewrite H1, H2 in E. discriminate.
Qed.
Lemma digit_none c : digit c = None <-> ~ is_digit c.
Proof. destruct (digit c) as [v|] eqn:E; [apply digit_some in E as [E _]; split; [discriminate|contradiction]|]. split; [|reflexivity]. intros _ H. assert (X : digit c = Some (Z.of_nat (nat_of_ascii c) - 48)) by (apply digit_some; auto). congruence. Qed.
Lemma space_iff c : is_space c = true <-> is_ws c.
Proof. unfold is_space, is_ws. cbv zeta. rewrite orb_true_iff, !andb_true_iff, !Nat.leb_le. tauto. Qed.
Lemma underscore_not_digit : ~ is_digit "_"%char.
Proof. unfold is_digit. cbn. lia. Qed.
Lemma decimal_app l l' acc : decimal acc (l ++ l') = decimal (decimal acc l) l'.
Proof. revert acc. induction l as [|c l IH]; intros acc; [reflexivity|]. cbn [app decimal]. apply IH. Qed.

(** What may follow a digit. *)
Definition tail_of (l : list ascii) (acc z : Z) : Prop :=
  exists g gs, Forall is_digit g /\ Forall (fun g => g <> [] /\ Forall is_digit g) gs /\ l = g ++ List.concat (map (cons "_"%char) gs) /\ z = decimal acc (g ++ List.concat gs).
Lemma more_digits_ok : forall n l acc z, (List.length l <= n)%nat -> (more_digits acc l = Ok z <-> tail_of l acc z).
Proof.
  induction n as [|n IH]; intros l acc z Hn.
  { destruct l; [|cbn in Hn; lia]. cbn [more_digits]. split; [intros H; injection H as <-; exists [], []; repeat split; constructor|]. intros (g & gs & _ & Hg & E & ->). destruct g; [|discriminate]. destruct gs as [|x gs]; [reflexivity|discriminate]. }
  destruct l as [|c l]; [cbn [more_digits]; split; [intros H; injection H as <-; exists [], []; repeat split; constructor|]; intros (g & gs & _ & Hg & E & ->); destruct g; [|discriminate]; destruct gs as [|x gs]; [reflexivity|discriminate]|].
  cbn [more_digits]. cbn [List.length] in Hn. destruct (Ascii.eqb_spec c "_") as [->|N].
  - split.
    + destruct l as [|d l]; [discriminate|]. destruct (digit d) as [v|] eqn:Ed; [|discriminate]. intros H. cbn [List.length] in Hn. apply IH in H; [|lia]. destruct H as (g & gs & Hg & Hgs & -> & ->). apply digit_some in Ed as [Ed ->].
      exists [], ((d :: g) :: gs). split; [constructor|]. split; [constructor; [split; [discriminate|constructor; assumption]|assumption]|]. split; [reflexivity|reflexivity].
    + intros (g & gs & Hg & Hgs & E & ->). destruct g as [|x g]; [|cbn [app] in E; injection E as <- E; inversion Hg; subst; exfalso; apply underscore_not_digit; assumption].
      destruct gs as [|x gs]; [discriminate|]. cbn [app map List.concat] in E. injection E as E. inversion Hgs as [|? ? [Hx1 Hx2] Hgs']; subst. destruct x as [|d x]; [congruence|]. inversion Hx2; subst. cbn [app].
      assert (Ed : digit d = Some (Z.of_nat (nat_of_ascii d) - 48)) by (apply digit_some; auto). rewrite Ed. cbn [app List.length] in Hn. apply IH; [lia|]. exists x, gs. repeat split; assumption.
  - split.
    + destruct (digit c) as [v|] eqn:Ed; [|discriminate]. intros H. apply IH in H; [|lia]. destruct H as (g & gs & Hg & Hgs & -> & ->). apply digit_some in Ed as [Ed ->]. exists (c :: g), gs. repeat split; [constructor; assumption|assumption].
    + intros (g & gs & Hg & Hgs & E & ->). destruct g as [|x g]; [cbn [app] in E; destruct gs; [discriminate|]; cbn [map List.concat app] in E; injection E as E _; congruence|].
      cbn [app] in E. injection E as <- E. inversion Hg; subst. assert (Ed : digit c = Some (Z.of_nat (nat_of_ascii c) - 48)) by (apply digit_some; auto). rewrite Ed. apply IH; [lia|]. exists g, gs. repeat split; assumption.
Qed.
Lemma grouped_concat g gs : grouped (g :: gs) = g ++ List.concat (map (cons "_"%char) gs).
Proof. revert g. induction gs as [|x gs IH]; intros g; [cbn; rewrite app_nil_r; reflexivity|]. change (grouped (g :: x :: gs)) with (g ++ "_"%char :: grouped (x :: gs)). rewrite IH. reflexivity. Qed.
Lemma number_ok l z : number l = Ok z <-> numeral l z.
Proof.
  split.
  - destruct l as [|c l]; [discriminate|]. cbn [number]. destruct (digit c) as [v|] eqn:Ed; [|discriminate]. intros H. apply (more_digits_ok (List.length l)) in H; [|lia]. destruct H as (g & gs & Hg & Hgs & -> & ->). apply digit_some in Ed as [Ed ->].
    exists ((c :: g) :: gs). split; [discriminate|]. split; [constructor; [split; [discriminate|constructor; assumption]|assumption]|]. rewrite grouped_concat. split; reflexivity.
  - intros (gs & N & H & -> & ->). destruct gs as [|g gs]; [congruence|]. inversion H as [|? ? [H1 H2] H3]; subst. destruct g as [|c g]; [congruence|]. inversion H2; subst. rewrite grouped_concat. cbn [app number].
    assert (Ed : digit c = Some (Z.of_nat (nat_of_ascii c) - 48)) by (apply digit_some; auto). rewrite Ed. apply (more_digits_ok (List.length (g ++ List.concat (map (cons "_"%char) gs)))); [lia|]. exists g, gs. repeat split; assumption.
Qed.
Lemma lstrip_split l : exists a, Forall is_ws a /\ l = a ++ lstrip l /\ match lstrip l with [] => True | c :: _ => ~ is_ws c end.
Proof.
  induction l as [|c l (a & Ha & E & H)]; [exists []; repeat split; constructor|]. cbn [lstrip]. destruct (is_space c) eqn:Ec.
  - exists (c :: a). split; [constructor; [apply space_iff; exact Ec|exact Ha]|]. split; [cbn [app]; f_equal; exact E|exact H].
  - exists []. split; [constructor|]. split; [reflexivity|]. rewrite <- space_iff. congruence.
Qed.
Lemma lstrip_app a l : Forall is_ws a -> lstrip (a ++ l) = lstrip l.
Proof. induction 1 as [|c a Hc Ha IH]; [reflexivity|]. cbn [app lstrip]. apply space_iff in Hc. rewrite Hc. exact IH. Qed.
Lemma lstrip_id c l : ~ is_ws c -> lstrip (c :: l) = c :: l.
Proof. intros H. cbn [lstrip]. destruct (is_space c) eqn:E; [apply space_iff in E; contradiction|reflexivity]. Qed.
Lemma strip_body a b m : Forall is_ws a -> Forall is_ws b -> m <> [] -> Forall (fun c => ~ is_ws c) m -> strip (a ++ m ++ b) = m.
Proof.
  intros Ha Hb N Hm. unfold strip. rewrite lstrip_app by exact Ha. destruct m as [|c m]; [congruence|]. inversion Hm; subst. cbn [app]. rewrite lstrip_id by assumption. change (c :: m ++ b) with ((c :: m) ++ b). rewrite rev_app_distr, lstrip_app by (apply Forall_rev; exact Hb).
  destruct (rev (c :: m)) as [|d r] eqn:Er; [apply (f_equal (@List.length ascii)) in Er; rewrite rev_length in Er; discriminate|].
  assert (Hd : ~ is_ws d). { assert (X : In d (c :: m)) by (apply in_rev; rewrite Er; left; reflexivity). rewrite Forall_forall in Hm. apply Hm. exact X. }
  rewrite lstrip_id by exact Hd. rewrite <- Er. apply rev_involutive.
Qed.
Lemma strip_split l : exists a b, Forall is_ws a /\ Forall is_ws b /\ l = a ++ strip l ++ b.
Proof.
  unfold strip. destruct (lstrip_split l) as (a & Ha & E & _). destruct (lstrip_split (rev (lstrip l))) as (b & Hb & E' & _). exists a, (rev b). split; [exact Ha|]. split; [apply Forall_rev; exact Hb|].
  rewrite E at 1. f_equal. rewrite <- (rev_involutive (lstrip l)) at 1. rewrite E' at 1. apply rev_app_distr.
Qed.
Lemma numeral_chars l z : numeral l z -> l <> [] /\ Forall (fun c => is_digit c \/ c = "_"%char) l /\ exists c l', l = c :: l' /\ is_digit c.
Proof.
  intros (gs & N & H & -> & _). assert (A : Forall (fun c => is_digit c \/ c = "_"%char) (grouped gs)).
  { clear N. induction gs as [|g gs IH]; [constructor|]. inversion H as [|? ? [H1 H2] H3]; subst. rewrite grouped_concat. apply Forall_app. split; [eapply Forall_impl; [|exact H2]; cbn; auto|].
    clear - H3. induction H3 as [|x gs [X1 X2] _ IH]; [constructor|]. cbn [map List.concat app]. constructor; [right; reflexivity|]. apply Forall_app. split; [eapply Forall_impl; [|exact X2]; cbn; auto|exact IH]. }
  destruct gs as [|g gs]; [congruence|]. inversion H as [|? ? [H1 H2] H3]; subst. destruct g as [|c g]; [congruence|]. inversion H2; subst. rewrite grouped_concat in *. cbn [app] in *. split; [discriminate|]. split; [exact A|]. eexists c, _. split; [reflexivity|assumption].
Qed.
(** Python's [int], for ASCII: spaces around, an optional sign, groups of digits separated by single underscores. *)
Theorem C134_int : forall s z, py_int s = Ok z <->
  exists a b sign l n, Forall is_ws a /\ Forall is_ws b /\ In sign [[]; ["+"%char]; ["-"%char]] /\ numeral l n /\ list_ascii_of_string s = a ++ sign ++ l ++ b /\ z = (if list_eq_dec ascii_dec sign ["-"%char] then - n else n).
Proof.
  intros s z. unfold py_int. generalize (list_ascii_of_string s). clear s. intros t. split.
  - intros H. destruct (strip_split t) as (a & b & Ha & Hb & E). destruct (strip t) as [|c l]; [discriminate|]. exists a, b. destruct (Ascii.eqb_spec c "-") as [->|N1]; [|destruct (Ascii.eqb_spec c "+") as [->|N2]].
    + destruct (number l) as [n|] eqn:En; [|discriminate]. injection H as <-. apply number_ok in En. exists ["-"%char], l, n. cbn [In]. do 2 (split; [assumption|]). split; [tauto|]. split; [exact En|]. split; [exact E|reflexivity].
    + apply number_ok in H. exists ["+"%char], l, z. cbn [In]. do 2 (split; [assumption|]). split; [tauto|]. split; [exact H|]. split; [exact E|reflexivity].
    + apply number_ok in H. exists [], (c :: l), z. cbn [In]. do 2 (split; [assumption|]). split; [tauto|]. split; [exact H|]. split; [exact E|reflexivity].
  - intros (a & b & sign & l & n & Ha & Hb & Hs & Hl & -> & ->). destruct (numeral_chars l n Hl) as (N & Hc & c0 & l0 & E0 & D0).
    assert (W : Forall (fun c => ~ is_ws c) (sign ++ l)).
    { apply Forall_app. split; [destruct Hs as [<-|[<-|[<-|[]]]]; repeat constructor; unfold is_ws; cbn; lia|]. eapply Forall_impl; [|exact Hc]. intros c [D| ->]; unfold is_ws; [unfold is_digit in D|cbn]; lia. }
    rewrite app_assoc, app_assoc, <- (app_assoc a), <- app_assoc. rewrite (strip_body a b (sign ++ l) Ha Hb); [|destruct sign; [exact N|discriminate]|exact W]. apply number_ok in Hl.
    destruct Hs as [<-|[<-|[<-|[]]]]; cbn [app].
    + rewrite E0 in *. assert (c0 <> "-"%char /\ c0 <> "+"%char) as [X1 X2] by (split; intros ->; unfold is_digit in D0; cbn in D0; lia). destruct (Ascii.eqb_spec c0 "-"); [contradiction|]. destruct (Ascii.eqb_spec c0 "+"); [contradiction|]. exact Hl.
    + exact Hl.
    + cbn. rewrite Hl. reflexivity.
Qed.
Print Assumptions C134_int.
(** [int] raises nothing but ValueError. *)
Lemma more_digits_err : forall n l acc e, (List.length l <= n)%nat -> more_digits acc l = Err e -> e = ValueError.
Proof.
  induction n as [|n IH]; intros [|c l] acc e Hn H; cbn in Hn; try lia; try discriminate. cbn [more_digits] in H. destruct (Ascii.eqb c "_").
  - destruct l as [|d l]; [congruence|]. cbn in Hn. destruct (digit d); [|congruence]. eapply IH; [|exact H]. lia.
  - destruct (digit c); [|congruence]. eapply IH; [|exact H]. lia.
Qed.
Lemma number_err l e : number l = Err e -> e = ValueError.
Proof. destruct l as [|c l]; cbn [number]; [congruence|]. destruct (digit c); [|congruence]. apply (more_digits_err (List.length l)). lia. Qed.
Lemma int_err s e : py_int s = Err e -> e = ValueError.
Proof. unfold py_int. destruct (strip _) as [|c l]; [congruence|]. destruct (Ascii.eqb c "-"); [destruct (number l) eqn:E; cbn; [discriminate|]; intros H; injection H as <-; eapply number_err; exact E|]. destruct (Ascii.eqb c "+"); apply number_err. Qed.

(** Exactly when equinox can be imported, and with which settings; otherwise there is a ValueError. *)
Theorem C134_load : forall env c, load env = Ok c <->
  In (on_error c) ["raise"; "breakpoint"; "nan"] /\ (env "EQX_ON_ERROR" = Some (on_error c) \/ env "EQX_ON_ERROR" = None /\ on_error c = "raise") /\
  (warned c = true <-> on_error c = "breakpoint") /\
  match env "EQX_ON_ERROR_BREAKPOINT_FRAMES" with None => frames c = 1 | Some s => py_int s = Ok (frames c) end /\
  match env "EQX_GETKEY_SEED" with None => seed c = None | Some s => exists z, seed c = Some z /\ py_int s = Ok z end.
Proof.
  intros env [oe w fr sd]. unfold load. cbn [on_error warned frames seed]. cbv zeta. set (e := match env "EQX_ON_ERROR" with Some s => s | None => "raise" end).
  assert (He : In e ["raise"; "breakpoint"; "nan"] <-> existsb (String.eqb e) ["raise"; "breakpoint"; "nan"] = true).
  { rewrite existsb_exists. split; [intros H; exists e; split; [exact H|apply String.eqb_refl]|]. intros (x & Hx & E). apply String.eqb_eq in E. subst. exact Hx. }
  split.
  - destruct (existsb (String.eqb e) _) eqn:E; cbn [negb]; [|discriminate]. intros H. apply bind_ok in H as (fr' & Hf & H). apply bind_ok in H as (sd' & Hs & H). injection H as <- <- <- <-.
    split; [apply He; reflexivity|]. split; [unfold e; destruct (env "EQX_ON_ERROR"); [left; reflexivity|right; split; reflexivity]|]. split; [apply String.eqb_eq|]. split; [destruct (env "EQX_ON_ERROR_BREAKPOINT_FRAMES"); [exact Hf|injection Hf as <-; reflexivity]|].
    destruct (env "EQX_GETKEY_SEED"); [|injection Hs as <-; reflexivity]. destruct (py_int s) as [z|]; [|discriminate]. injection Hs as <-. exists z. split; reflexivity.
  - intros (H1 & H2 & H3 & H4 & H5). assert (oe = e) as -> by (unfold e; destruct H2 as [-> |[-> ->]]; reflexivity). apply He in H1. rewrite H1. cbn [negb].
    assert (Ef : match env "EQX_ON_ERROR_BREAKPOINT_FRAMES" with None => Ok 1 | Some s => py_int s end = Ok fr) by (destruct (env "EQX_ON_ERROR_BREAKPOINT_FRAMES"); [exact H4|rewrite H4; reflexivity]).
    assert (Es : match env "EQX_GETKEY_SEED" with None => Ok None | Some s => rmap Some (py_int s) end = Ok sd) by (destruct (env "EQX_GETKEY_SEED"); [destruct H5 as (z & -> & ->); reflexivity|rewrite H5; reflexivity]).
    rewrite Ef, Es. cbn [bind]. do 2 f_equal. destruct w, (String.eqb_spec e "breakpoint"); try reflexivity; exfalso; [apply n, H3; reflexivity|]. assert (false = true) by (apply H3; assumption). discriminate.
Qed.
Print Assumptions C134_load.
Theorem C134_load_error : forall env e, load env = Err e -> e = ValueError.
Proof.
  intros env e. unfold load. cbv zeta. destruct (negb _); [congruence|]. destruct (env "EQX_ON_ERROR_BREAKPOINT_FRAMES") as [s|]; [destruct (py_int s) eqn:E; cbn [bind]; [|intros H; injection H as <-; eapply int_err; exact E]|cbn [bind]];
  (destruct (env "EQX_GETKEY_SEED") as [s'|]; [|discriminate]); destruct (py_int s') eqn:E'; cbn; try discriminate; intros H; injection H as <-; eapply int_err; exact E'.
Qed.
Print Assumptions C134_load_error.
(** After a successful import [error_if] with its default finds a known action, whatever the environment; an explicit action does not depend on the environment but for the frames. *)
Theorem C134_error_action : forall env c, load env = Ok c ->
  (error_action c "default" = Ok Raise <-> env "EQX_ON_ERROR" = None \/ env "EQX_ON_ERROR" = Some "raise") /\
  (error_action c "default" = Ok Nan <-> env "EQX_ON_ERROR" = Some "nan") /\
  (error_action c "default" = Ok (Breakpoint (frames c)) <-> env "EQX_ON_ERROR" = Some "breakpoint") /\
  error_action c "raise" = Ok Raise /\ error_action c "nan" = Ok Nan /\ error_action c "breakpoint" = Ok (Breakpoint (frames c)) /\
  forall a, ~ In a ["default"; "raise"; "nan"; "breakpoint"] -> error_action c a = Err RuntimeError.
Proof.
  intros env c H. apply C134_load in H as (H1 & H2 & _). split; [|split; [|split; [|split; [reflexivity|split; [reflexivity|split; [reflexivity|]]]]]].
  1-3: unfold error_action; cbn [String.eqb orb]; change (String.eqb "default" "default") with true; cbn [orb]; cbv zeta iota; destruct H1 as [E1|[E1|[E1|[]]]]; rewrite <- E1 in *; destruct H2 as [-> |[-> X]]; try discriminate X; cbn; intuition congruence.
  intros a Ha. unfold error_action. destruct (String.eqb_spec a "default") as [->|N]; [exfalso; apply Ha; left; reflexivity|]. cbn [orb existsb]. destruct (String.eqb_spec a "raise") as [->|]; [exfalso; apply Ha; cbn; tauto|]. destruct (String.eqb_spec a "breakpoint") as [->|]; [exfalso; apply Ha; cbn; tauto|].
  destruct (String.eqb_spec a "nan") as [->|]; [exfalso; apply Ha; cbn; tauto|]. reflexivity.
Qed.
Print Assumptions C134_error_action.
(** The keys of tests can be repeated: the seed is fixed by an argument or by the environment, and only drawn if both are missing, or if the argument is [None]. *)
Theorem C134_seed : forall env c arg, load env = Ok c ->
  ((forall r r', getkey_seed c arg r = getkey_seed c arg r') <-> (exists s, arg = Some (Some s)) \/ (arg = None /\ env "EQX_GETKEY_SEED" <> None)) /\
  (forall s r, env "EQX_GETKEY_SEED" = Some s -> py_int s = Ok (getkey_seed c None r)) /\ (forall z r, getkey_seed c (Some (Some z)) r = z) /\ (forall r, getkey_seed c (Some None) r = r).
Proof.
  intros env c arg H. apply C134_load in H as (_ & _ & _ & _ & H). split; [|split; [|split; reflexivity]].
  - unfold getkey_seed. destruct arg as [[s|]|].
    + split; [intros _; left; exists s; reflexivity|reflexivity].
    + split; [intros X; specialize (X 0 1); discriminate|]. intros [[s X]|[X _]]; discriminate.
    + destruct (env "EQX_GETKEY_SEED"); [destruct H as (z & -> & _); split; [intros _; right; split; [reflexivity|discriminate]|reflexivity]|]. rewrite H. split; [intros X; specialize (X 0 1); discriminate|]. intros [[s X]|[_ X]]; [discriminate|congruence].
  - intros s r E. rewrite E in H. destruct H as (z & Hz & Hi). unfold getkey_seed. rewrite Hz. exact Hi.
Qed.
Print Assumptions C134_seed.

Example C134_ex_int : py_int " -1_000 " = Ok (-1000) /\ py_int "+007" = Ok 7 /\ py_int "" = Err ValueError /\ py_int "1__0" = Err ValueError /\ py_int "_1" = Err ValueError /\ py_int "1_" = Err ValueError /\ py_int "- 1" = Err ValueError /\ py_int "0x10" = Err ValueError /\ py_int "1.0" = Err ValueError.
Proof. repeat split. Qed.
Example C134_ex_load : load (fun _ => None) = Ok (mk_config "raise" false 1 None) /\
  load (fun n => if String.eqb n "EQX_ON_ERROR" then Some "breakpoint" else if String.eqb n "EQX_GETKEY_SEED" then Some "42" else None) = Ok (mk_config "breakpoint" true 1 (Some 42)) /\
  load (fun n => if String.eqb n "EQX_ON_ERROR" then Some "NaN" else None) = Err ValueError /\ load (fun n => if String.eqb n "EQX_ON_ERROR_BREAKPOINT_FRAMES" then Some "" else None) = Err ValueError.
Proof. repeat split. Qed.
