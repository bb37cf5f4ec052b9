(** C98: run-time errors of compiled functions. *)
From Verif Require Import RunError_Model.
Local Open Scope list_scope.

(** The callbacks of [error_if] that ran, and the messages logged, in order, nested calls included. *)
Fixpoint fires {V} (a : action V) : list (string * string) :=
  match a with Fire m k => [(m, k)] | Log _ => [] | Nested _ acts _ => flat_map fires acts end.
Fixpoint logs {V} (a : action V) : list string :=
  match a with Fire _ _ => [] | Log m => [m] | Nested _ acts _ => flat_map logs acts end.
(** The exception that a call meets: at once, or while waiting (outside of jit). *)
Definition meets {V} (jitting : bool) (e : ending V) (x : exc) : Prop :=
  at_dispatch e = Some x \/ at_dispatch e = None /\ jitting = false /\ at_ready e = Some x.
(** All errors that fired in a session, in order. *)
Definition history {V} (calls : list (bool * list (action V) * ending V)) : list (string * string) :=
  flat_map (fun '(_, acts, _) => flat_map fires acts) calls.
Notation marker := "_EquinoxRuntimeError: "%string.

Lemma prefix_iff p k : prefix p k = true <-> exists r, k = (p ++ r)%string.
Proof.
  revert k. induction p as [|x p IH]; intros k.
  - split; [exists k; reflexivity|destruct k; auto].
  - destruct k as [|y k]; cbn [prefix]; [split; [discriminate|intros (r & E); discriminate]|].
    destruct (Ascii.ascii_dec x y) as [->|N].
    + rewrite IH. split; intros (r & E); exists r; cbn in *; congruence.
    + split; [discriminate|]. intros (r & E). cbn in E. congruence.
Qed.
Lemma contains_iff sub text : contains sub text = true <-> exists a b, text = (a ++ sub ++ b)%string.
Proof.
  induction text as [|c text IH]; cbn [contains]; rewrite orb_true_iff, prefix_iff.
  - split.
    + intros [(r & E)|H]; [exists EmptyString, r; exact E|discriminate].
    + intros (a & b & E). destruct a; [left; exists b; exact E|discriminate].
  - rewrite IH. split.
    + intros [(r & E)|(a & b & E)]; [exists EmptyString, r; exact E|exists (String c a), b; cbn; congruence].
    + intros ([|c' a] & b & E); [left; exists b; exact E|right]. cbn in E. injection E as <- E. exists a, b. exact E.
Qed.
Lemma same_filter_iff a b : same_filter a b = true <-> a = b.
Proof. destruct a, b; cbn; rewrite ?Nat.eqb_eq; split; congruence. Qed.
Lemma remove_last f l : ~ In f l -> remove_filter f (l ++ [f]) = l.
Proof.
  induction l as [|g l IH]; intros H; cbn.
  - rewrite (proj2 (same_filter_iff f f)); auto.
  - destruct (same_filter f g) eqn:E; [apply same_filter_iff in E; subst; exfalso; apply H; left; auto|]. rewrite IH; [auto|]. intros HI. apply H. right. auto.
Qed.

Section Act.
  Context {V : Type}.
  Variable user : nat -> string -> bool.
  Notation act := (act V user).
  Fixpoint action_ind' (P : action V -> Prop) (hf : forall m k, P (Fire m k)) (hl : forall m, P (Log m))
    (hn : forall j acts e, Forall P acts -> P (Nested j acts e)) (a : action V) : P a :=
    match a with
    | Fire m k => hf m k
    | Log m => hl m
    | Nested j acts e => hn j acts e ((fix go l : Forall P l := match l with [] => Forall_nil _ | a :: l => Forall_cons a (action_ind' P hf hl hn a) (go l) end) acts)
    end.

  Definition fresh (s : state) : Prop := forall n, In (Ours n) (filters s) -> n < made s.
  Definition last_of (d : option string * option string) (l : list (string * string)) : option string * option string :=
    fold_left (fun _ p => (Some (fst p), Some (snd p))) l d.
  (** What a stretch of the program does to the state. *)
  Definition effect (s s' : state) (fs : list (string * string)) (ls : list string) : Prop :=
    filters s' = filters s /\ made s <= made s' /\ (last_msg s', last_stack s') = last_of (last_msg s, last_stack s) fs /\
    ((exists n, In (Ours n) (filters s)) -> shown s' = shown s ++ List.filter (fun m => forallb (fun f => passes user f m) (filters s)) ls).

  Lemma effect_fresh s s' fs ls : fresh s -> effect s s' fs ls -> fresh s'.
  Proof. intros H (E1 & E2 & _) n Hn. rewrite E1 in Hn. apply H in Hn. lia. Qed.
  Lemma effect_app s s1 s2 f1 l1 f2 l2 : effect s s1 f1 l1 -> effect s1 s2 f2 l2 -> effect s s2 (f1 ++ f2) (l1 ++ l2).
  Proof.
    intros (A1 & A2 & A3 & A4) (B1 & B2 & B3 & B4). split; [congruence|]. split; [lia|]. split.
    - rewrite B3, A3. unfold last_of. rewrite fold_left_app. reflexivity.
    - intros H. rewrite B4 by (rewrite A1; exact H). rewrite A4 by exact H. rewrite A1, filter_app, app_assoc. reflexivity.
  Qed.
  Lemma enter_filters s : fresh s -> filters (enter s) = filters s ++ [Ours (made s)].
  Proof.
    intros H. cbn. unfold add_filter. destruct (existsb _ _) eqn:E; [|reflexivity]. exfalso. apply existsb_exists in E as (f & Hf & E). apply same_filter_iff in E. subst f. apply H in Hf. lia.
  Qed.
  Lemma acts_effect acts : Forall (fun a => forall s, fresh s -> effect s (act a s) (fires a) (logs a)) acts ->
    forall s, fresh s -> effect s (fold_left (fun s a => act a s) acts s) (flat_map fires acts) (flat_map logs acts).
  Proof.
    induction 1 as [|a acts Ha _ IH]; intros s Hs; cbn [fold_left flat_map].
    - split; [reflexivity|]. split; [lia|]. split; [reflexivity|]. intros _. cbn. rewrite app_nil_r. reflexivity.
    - eapply effect_app; [apply Ha, Hs|]. apply IH. eapply effect_fresh; [exact Hs|apply Ha, Hs].
  Qed.
  Lemma enter_leave s acts : fresh s -> Forall (fun a => forall s, fresh s -> effect s (act a s) (fires a) (logs a)) acts ->
    let s1 := fold_left (fun s a => act a s) acts (enter s) in
    let P := fun m => forallb (fun f => passes user f m) (filters s) && negb (String.eqb m "jax.pure_callback failed") in
    filters (leave (made s) s1) = filters s /\ made s <= made s1 /\ (last_msg s1, last_stack s1) = last_of (last_msg s, last_stack s) (flat_map fires acts) /\
    shown s1 = shown s ++ List.filter P (flat_map logs acts).
  Proof.
    intros Hs H s1 P. assert (Hf : fresh (enter s)).
    { intros n Hn. rewrite enter_filters in Hn by exact Hs. cbn. apply in_app_or in Hn as [Hn|[Hn|[]]]; [apply Hs in Hn; lia|injection Hn as <-; lia]. }
    destruct (acts_effect acts H (enter s) Hf) as (E1 & E2 & E3 & E4). fold s1 in E1, E2, E3, E4. split; [|split; [|split]].
    - cbn. rewrite E1, enter_filters by exact Hs. apply remove_last. intros Hn. apply Hs in Hn. lia.
    - cbn in E2. lia.
    - exact E3.
    - rewrite E4 by (exists (made s); rewrite enter_filters by exact Hs; apply in_or_app; right; left; reflexivity). cbn [enter shown]. f_equal. apply filter_ext. intros m. rewrite enter_filters by exact Hs. rewrite forallb_app. cbn. rewrite andb_true_r. reflexivity.
  Qed.
  Lemma act_effect a : forall s, fresh s -> effect s (act a s) (fires a) (logs a).
  Proof.
    induction a as [m k|m|j acts e IH] using action_ind'; intros s Hs.
    - split; [reflexivity|]. split; [cbn; lia|]. split; [reflexivity|]. intros _. cbn. rewrite app_nil_r. reflexivity.
    - unfold effect. cbn [RunError_Model.act fires logs List.filter]. destruct (forallb _ _) eqn:E; cbn; (split; [reflexivity|]; split; [lia|]; split; [reflexivity|]; intros _); [reflexivity|rewrite app_nil_r; reflexivity].
    - destruct (enter_leave s acts Hs IH) as (E1 & E2 & E3 & E4). cbn [RunError_Model.act fires logs]. split; [exact E1|]. split; [exact E2|]. split; [exact E3|].
      intros [n Hn]. cbn [leave shown]. rewrite E4. f_equal. apply filter_ext_in. intros m _. destruct (forallb (fun f => passes user f m) (filters s)) eqn:EF; [|reflexivity].
      cbn. rewrite forallb_forall in EF. specialize (EF _ Hn). cbn in EF. rewrite EF. reflexivity.
  Qed.
  Lemma acts_all (acts : list (action V)) : Forall (fun a => forall s, fresh s -> effect s (act a s) (fires a) (logs a)) acts.
  Proof. apply Forall_forall. intros a _. apply act_effect. Qed.

  Lemma session_state fs calls : let s := session V user fs calls in
    filters s = map User fs /\ (last_msg s, last_stack s) = last_of (None, None) (history calls).
  Proof.
    cbv zeta. unfold session, history. induction calls as [|[[j acts] e] calls IH] using rev_ind; [split; reflexivity|].
    rewrite fold_left_app, flat_map_app. cbn [fold_left flat_map]. rewrite app_nil_r. destruct IH as [F L].
    set (s := fold_left _ calls _) in *. assert (Hs : fresh s) by (intros n Hn; rewrite F in Hn; apply in_map_iff in Hn as (u & Hu & _); discriminate).
    destruct (enter_leave s acts Hs (acts_all acts)) as (E1 & _ & E3 & _). split; [cbn [jit_call fst]; rewrite E1; exact F|].
    cbn [jit_call fst leave last_msg last_stack]. rewrite E3, L. unfold last_of. rewrite fold_left_app. reflexivity.
  Qed.
  Lemma session_fresh fs calls : fresh (session V user fs calls).
  Proof. intros n Hn. rewrite (proj1 (session_state fs calls)) in Hn. apply in_map_iff in Hn as (u & Hu & _). discriminate. Qed.
End Act.

Lemma last_of_app d l m k : last_of d (l ++ [(m, k)]) = (Some m, Some k).
Proof. unfold last_of. rewrite fold_left_app. reflexivity. Qed.
Lemma meets_surfaced {V} j (e : ending V) x : meets j e x <-> surfaced V j e = Some x.
Proof.
  unfold meets, surfaced. destruct (at_dispatch e) as [y|]; [|destruct j].
  - split; [intros [H|(H & _)]; [exact H|discriminate]|auto].
  - split; [intros [H|(_ & H & _)]; discriminate|discriminate].
  - split; [intros [H|(_ & _ & H)]; [discriminate|exact H]|auto].
Qed.

(** What the caller of a compiled function sees, after any session: the value if no exception is met; an exception that is not
    a JAX run-time error, or whose text does not contain the mark, as it was; otherwise [EquinoxRuntimeError] with message and stack of
    the error that fired last, in this call or any earlier one. *)
Theorem C98_exact : forall V user fs calls j acts (e : ending V),
  let out := snd (jit_call V user j acts e (session V user fs calls)) in
  ((forall x, ~ meets j e x) -> out = Value (value e)) /\
  (forall t, meets j e (OtherExn t) -> out = Reraised (OtherExn t)) /\
  (forall t, meets j e (JaxError t) -> (forall a b, t <> (a ++ marker ++ b)%string) -> out = Reraised (JaxError t)) /\
  (forall a b, meets j e (JaxError (a ++ marker ++ b)) ->
     (forall older m k, history calls ++ flat_map fires acts = older ++ [(m, k)] -> out = EqxError m k) /\
     (history calls ++ flat_map fires acts = [] -> out = Reraised (JaxError (a ++ marker ++ b)))).
Proof.
  intros V user fs calls j acts e out. set (s := session V user fs calls) in *.
  destruct (session_state user fs calls) as [_ L]. fold s in L. pose proof (session_fresh (V := V) user fs calls) as Hs. fold s in Hs.
  destruct (enter_leave user s acts Hs (acts_all user acts)) as (_ & _ & E3 & _). subst out. cbn [jit_call snd]. set (s1 := fold_left _ acts _) in *.
  assert (EL : (last_msg s1, last_stack s1) = last_of (None, None) (history calls ++ flat_map fires acts)) by (rewrite E3, L; unfold last_of; rewrite fold_left_app; reflexivity).
  unfold handle. split; [|split; [|split]].
  - intros H. destruct (surfaced V j e) as [x|] eqn:E; [exfalso; apply (H x), meets_surfaced, E|reflexivity].
  - intros t H. apply meets_surfaced in H. rewrite H. reflexivity.
  - intros t H HN. apply meets_surfaced in H. rewrite H. destruct (contains marker t) eqn:C; [apply contains_iff in C as (a & b & C); exfalso; exact (HN a b C)|].
    destruct (last_msg s1), (last_stack s1); reflexivity.
  - intros a b H. apply meets_surfaced in H. rewrite H. assert (C : contains marker (a ++ marker ++ b) = true) by (apply contains_iff; exists a, b; reflexivity). rewrite C. split.
    + intros older m k HH. rewrite HH, last_of_app in EL. injection EL as -> ->. reflexivity.
    + intros HH. rewrite HH in EL. cbn in EL. injection EL as EA EB. rewrite EA. reflexivity.
Qed.
Print Assumptions C98_exact.

(** If every error that fired during the call is the same, it is reported, whatever happened before. *)
Theorem C98_right_message : forall V user fs calls j acts (e : ending V) a b m k,
  meets j e (JaxError (a ++ marker ++ b)) -> In (m, k) (flat_map fires acts) -> (forall p, In p (flat_map fires acts) -> p = (m, k)) ->
  snd (jit_call V user j acts e (session V user fs calls)) = EqxError m k.
Proof.
  intros V user fs calls j acts e a b m k H HI HA. destruct (C98_exact V user fs calls j acts e) as (_ & _ & _ & HX). destruct (HX a b H) as [HX' _].
  destruct (rev (flat_map fires acts)) as [|p r] eqn:E; [apply in_rev in HI; rewrite E in HI; destruct HI|].
  assert (EF : flat_map fires acts = rev r ++ [p]) by (rewrite <- (rev_involutive (flat_map fires acts)), E; reflexivity).
  apply (HX' (history calls ++ rev r)). rewrite EF, app_assoc. f_equal. f_equal. apply HA. rewrite EF. apply in_or_app. right. left. reflexivity.
Qed.
Print Assumptions C98_right_message.

(** Outside of jit a value is only returned once the computation has ended without an exception; under jit what comes later is not seen. *)
Theorem C98_value : forall V user fs calls acts (e : ending V) v,
  (snd (jit_call V user false acts e (session V user fs calls)) = Value v <-> at_dispatch e = None /\ at_ready e = None /\ value e = v) /\
  (snd (jit_call V user true acts e (session V user fs calls)) = Value v <-> at_dispatch e = None /\ value e = v).
Proof.
  intros V user fs calls acts e v. cbn [jit_call snd]. set (s1 := fold_left _ acts _). unfold handle, surfaced. split.
  - destruct (at_dispatch e) as [[t|t]|]; [destruct (last_msg s1), (last_stack s1); try destruct (contains marker t)| |]; try (split; [discriminate|intros [H _]; discriminate]).
    destruct (at_ready e) as [[t|t]|]; [destruct (last_msg s1), (last_stack s1); try destruct (contains marker t)| |]; try (split; [discriminate|intros (_ & H & _); discriminate]).
    split; [intros H; injection H; auto|intros (_ & _ & ->); reflexivity].
  - destruct (at_dispatch e) as [[t|t]|]; [destruct (last_msg s1), (last_stack s1); try destruct (contains marker t)| |]; try (split; [discriminate|intros [H _]; discriminate]).
    split; [intros H; injection H; auto|intros (_ & ->); reflexivity].
Qed.
Print Assumptions C98_value.

(** However calls end and are nested, the filters of the logger are afterwards what they were. *)
Theorem C98_filters : forall V user fs (calls : list (bool * list (action V) * ending V)), filters (session V user fs calls) = map User fs.
Proof. intros V user fs calls. exact (proj1 (session_state user fs calls)). Qed.
Print Assumptions C98_filters.

(** During a call, of the messages that pass the filters of the user exactly the notices of failed callbacks are dropped. *)
Theorem C98_logged : forall V user fs calls j acts (e : ending V), let s := session V user fs calls in
  shown (fst (jit_call V user j acts e s)) =
  shown s ++ List.filter (fun m => forallb (fun u => user u m) fs && negb (String.eqb m "jax.pure_callback failed")) (flat_map logs acts).
Proof.
  intros V user fs calls j acts e s. cbn [jit_call fst leave shown]. destruct (enter_leave user s acts (session_fresh (V := V) user fs calls) (acts_all user acts)) as (_ & _ & _ & E). rewrite E.
  f_equal. apply filter_ext. intros m. subst s. rewrite (proj1 (session_state user fs calls)). f_equal. clear. induction fs as [|u fs IH]; cbn; [|rewrite IH]; reflexivity.
Qed.
Print Assumptions C98_logged.

(** *** Witnesses *)
Definition failed (t : string) : ending nat := {| at_dispatch := None; at_ready := Some (JaxError t); value := 0 |}.
Definition call j acts e calls := snd (jit_call nat (fun _ _ => true) j acts e (session nat (fun _ _ => true) [] calls)).
Example C98_ex :
  call false [Log "x"; Fire "too large" "line 3"] (failed "INTERNAL: _EquinoxRuntimeError: too large") [] = EqxError "too large"%string "line 3"%string /\
  call true [] (failed "INTERNAL: _EquinoxRuntimeError: too large") [] = Value 0 /\
  call false [] (failed "INTERNAL: out of memory") [(false, [Fire "too large" "line 3"], failed "_EquinoxRuntimeError: too large")] = Reraised (JaxError "INTERNAL: out of memory"%string).
Proof. split; [|split]; reflexivity. Qed.
(** If two errors fire, the one reported need not be the one that ended the computation. *)
Theorem C98_two_errors_refuted : exists acts m m' k',
  fires (nth 0 acts (Log "")) = [(m, "here"%string)] /\ m <> m' /\
  call false acts (failed (marker ++ m)) [] = EqxError m' k'.
Proof. exists [Fire "a" "here"; Fire "b" "there"], "a"%string, "b"%string, "there"%string. split; [reflexivity|]. split; [discriminate|reflexivity]. Qed.
Print Assumptions C98_two_errors_refuted.
(** The last message is never forgotten: a later failure in which no error fired, but whose text quotes such an error, is reported
    with the message of the earlier one. *)
Theorem C98_stale_refuted : exists calls (t : string), history calls = [("a", "here")]%string /\
  call false [] (failed t) calls = EqxError "a"%string "here"%string.
Proof. exists [(false, [Fire "a" "here"], failed "_EquinoxRuntimeError: a")], "ValueError: while handling _EquinoxRuntimeError: b"%string. split; reflexivity. Qed.
Print Assumptions C98_stale_refuted.
(** A compiled function called by a callback of another: the error arrives as [EquinoxRuntimeError] in the callback, and the outer call
    fails with a text that has no mark; it is not translated. *)
Theorem C98_nested_refuted : exists m k t,
  call false [Nested false [Fire m k] (failed (marker ++ m))] (failed t) [] = Reraised (JaxError t) /\
  t = ("INTERNAL: EquinoxRuntimeError: " ++ m)%string.
Proof. exists "a"%string, "here"%string. exists "INTERNAL: EquinoxRuntimeError: a"%string. split; reflexivity. Qed.
Print Assumptions C98_nested_refuted.
