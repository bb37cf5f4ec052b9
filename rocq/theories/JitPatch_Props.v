(** C135: the replaced jax.jit, and the warning about transformed functions. *)
From Coq Require Import Lia.
From Verif Require Import Base JitPatch_Model.
Local Open Scope nat_scope.
Local Open Scope list_scope.
Local Notation length := List.length.

Section Props.
  Variable V : Type.
  Notation prog := (prog V).
  Notation event := (event).
  Notation run_all b d := (run_list (V := V) (run b d)).
  Fixpoint prog_ind' (P : prog -> Prop) (H : forall id j op calls, Forall P calls -> P (Node id j op calls)) (p : prog) : P p :=
    match p with Node id j op calls => H id j op calls ((fix go l : Forall P l := match l with [] => Forall_nil P | q :: l => Forall_cons q (prog_ind' P H q) (go l) end) calls) end.

  (** The replacement does not change results or exceptions, nor which functions run in which order. *)
  Definition body (e : event) : list nat := match e with Traced id _ => [id] | Ignored _ => [] end.
  Theorem C135_same_results : forall (p : prog) b b' d d', fst (run b d p) = fst (run b' d' p) /\ flat_map body (snd (run b d p)) = flat_map body (snd (run b' d' p)).
  Proof.
    induction p as [id j op calls IH] using prog_ind'. intros b b' d d'. cbn [run]; cbv zeta.
    assert (A : forall d d', fst (run_all b d calls) = fst (run_all b' d' calls) /\ flat_map body (snd (run_all b d calls)) = flat_map body (snd (run_all b' d' calls))).
    { clear d d'. induction IH as [|q l Hq Hl IHl]; intros d d'; [split; reflexivity|]. cbn [run_list]. destruct (Hq b b' d d') as [H1 H2]. destruct (run b d q) as [v e], (run b' d' q) as [v' e']. cbn [fst snd] in *. subst v'. destruct v as [v|x]; [|split; [reflexivity|exact H2]].
      destruct (IHl d d') as [H3 H4]. destruct (run_all b d l) as [vs f], (run_all b' d' l) as [vs' f']. cbn [fst snd] in *. subst vs'. split; [reflexivity|]. rewrite !flat_map_app, H2, H4. reflexivity. }
    set (i := b && j && (0 <? d)). set (i' := b' && j && (0 <? d')). set (k := if j && negb i then S d else d). set (k' := if j && negb i' then S d' else d'). destruct (A k k') as [H1 H2].
    destruct (run_all b k calls) as [vs f], (run_all b' k' calls) as [vs' f']. cbn [fst snd] in *. subst vs'. split; [reflexivity|]. rewrite !flat_map_app. cbn [flat_map body app]. rewrite H2. destruct i, i'; reflexivity.
  Qed.
  (** Calls happen in order, a function before the functions it calls, up to the first exception, which is the result. *)
  Inductive runs : prog -> res V -> list nat -> Prop :=
  | runs_ok id j op calls vs l : runs_calls calls (Ok vs) l -> runs (Node id j op calls) (op vs) (id :: l)
  | runs_err id j op calls x l : runs_calls calls (Err x) l -> runs (Node id j op calls) (Err x) (id :: l)
  with runs_calls : list prog -> res (list V) -> list nat -> Prop :=
  | calls_nil : runs_calls [] (Ok []) []
  | calls_raise q calls x l : runs q (Err x) l -> runs_calls (q :: calls) (Err x) l
  | calls_ok q calls v l vs l' : runs q (Ok v) l -> runs_calls calls (Ok vs) l' -> runs_calls (q :: calls) (Ok (v :: vs)) (l ++ l')
  | calls_later q calls v l x l' : runs q (Ok v) l -> runs_calls calls (Err x) l' -> runs_calls (q :: calls) (Err x) (l ++ l').
  Theorem C135_order : forall p b d, runs p (fst (run b d p)) (flat_map body (snd (run b d p))).
  Proof.
    induction p as [id j op calls IH] using prog_ind'. intros b d. cbn [run]; cbv zeta. set (d' := if j && _ then _ else _). set (i := b && j && (0 <? d)). clearbody d' i.
    assert (A : runs_calls calls (fst (run_all b d' calls)) (flat_map body (snd (run_all b d' calls)))).
    { induction IH as [|q l Hq Hl IHl]; [constructor|]. cbn [run_list]. specialize (Hq b d'). destruct (run b d' q) as [[v|x] e]; cbn [fst snd] in *; [|constructor; exact Hq]. destruct (run_all b d' l) as [[vs|x] f]; cbn [fst snd rmap] in *; rewrite flat_map_app; econstructor; eassumption. }
    destruct (run_all b d' calls) as [[vs|x] f]; cbn [fst snd] in *; rewrite flat_map_app; destruct i; cbn [flat_map body app]; constructor; exact A.
  Qed.
  (** With the replacement no function is compiled inside another. *)
  Theorem C135_depth : forall (p : prog) id n, In (Traced id n) (snd (run true 0 p)) -> n <= 1.
  Proof.
    assert (G : forall (p : prog) d id n, d <= 1 -> In (Traced id n) (snd (run true d p)) -> n <= 1).
    { induction p as [id j op calls IH] using prog_ind'. intros d i n Hd. cbn [run]; cbv zeta. set (ig := true && j && (0 <? d)). set (d' := if j && negb ig then S d else d).
      assert (Hd' : d' <= 1) by (unfold d', ig; destruct j; cbn [andb negb]; [destruct (Nat.ltb_spec 0 d); cbn [negb]; lia|exact Hd]). clearbody ig d'.
      assert (A : forall i n, In (Traced i n) (snd (run_all true d' calls)) -> n <= 1).
      { clear - IH Hd'. induction IH as [|q l Hq Hl IHl]; intros i n; cbn [run_list]; [intros []|]. specialize (Hq d'). destruct (run true d' q) as [[v|x] e]; cbn [snd] in *; [|apply Hq; exact Hd'].
        destruct (run_all true d' l) as [vs f]. cbn [snd] in *. intros H. apply in_app_or in H as [H|H]; [eapply Hq; [exact Hd'|exact H]|eapply IHl; exact H]. }
      destruct (run_all true d' calls) as [vs f]. cbn [snd] in *. intros H. apply in_app_or in H as [H|H]; [destruct ig; [destruct H as [H|[]]; discriminate|destruct H]|]. destruct H as [H|H]; [injection H as _ <-; exact Hd'|eapply A; exact H]. }
    intros p id n. apply G. lia.
  Qed.
  (** Jitted functions inside others. *)
  Fixpoint no_jit (p : prog) : bool := match p with Node _ j _ calls => negb j && forallb no_jit calls end.
  Fixpoint flat (p : prog) : bool := match p with Node _ j _ calls => if j then forallb no_jit calls else forallb flat calls end.
  Lemma no_jit_run : forall p b b' d, no_jit p = true -> run b d p = run b' d p.
  Proof.
    induction p as [id j op calls IH] using prog_ind'. intros b b' d H. cbn [no_jit] in H. apply andb_true_iff in H as [Hj H]. destruct j; [discriminate|]. cbn [run]; cbv zeta. rewrite !andb_false_r. cbn [andb negb].
    assert (A : run_all b d calls = run_all b' d calls). { clear - IH H. induction IH as [|q l Hq Hl IHl]; [reflexivity|]. cbn [forallb] in H. apply andb_true_iff in H as [H1 H2]. cbn [run_list]. rewrite (Hq b b' d H1), (IHl H2). reflexivity. }
    rewrite A. reflexivity.
  Qed.
  (** Without jitted functions inside others the replacement changes nothing and does not warn. *)
  Theorem C135_flat : forall p, flat p = true -> run true 0 p = run false 0 p /\ forall id, ~ In (Ignored id) (snd (run true 0 p)).
  Proof.
    intros p H. assert (E : forall p, flat p = true -> run true 0 p = run false 0 p).
    { clear p H. induction p as [id j op calls IH] using prog_ind'. intros H. cbn [run]; cbv zeta. cbn [flat] in H. change (0 <? 0) with false. rewrite !andb_false_r. cbn [negb]. rewrite andb_true_r. destruct j.
      - assert (A : run_all true 1 calls = run_all false 1 calls). { clear - H. induction calls as [|q l IHl]; [reflexivity|]. cbn [forallb] in H. apply andb_true_iff in H as [H1 H2]. cbn [run_list]. rewrite (no_jit_run q true false 1 H1), (IHl H2). reflexivity. }
        rewrite A. reflexivity.
      - assert (A : run_all true 0 calls = run_all false 0 calls). { clear - H IH. induction IH as [|q l Hq Hl IHl]; [reflexivity|]. cbn [forallb] in H. apply andb_true_iff in H as [H1 H2]. cbn [run_list]. rewrite (Hq H1), (IHl H2). reflexivity. }
        rewrite A. reflexivity. }
    split; [apply E; exact H|]. rewrite E by exact H. clear. intros id0.
    assert (G : forall (p : prog) d, ~ In (Ignored id0) (snd (run false d p))); [|apply G].
    induction p0 as [id j op calls IH] using prog_ind'. intros d. cbn [run]; cbv zeta. cbn [andb negb]. rewrite andb_true_r. set (d' := if j then S d else d). clearbody d'.
    assert (A : ~ In (Ignored id0) (snd (run_all false d' calls))). { clear - IH. induction IH as [|q l Hq Hl IHl]; cbn [run_list]; [intros []|]. specialize (Hq d'). destruct (run false d' q) as [[v|x] e]; cbn [snd] in *; [|exact Hq]. destruct (run_all false d' l) as [vs f]. cbn [snd] in *. intros H. apply in_app_or in H. tauto. }
    destruct (run_all false d' calls) as [vs f]. cbn [snd app] in *. intros [H|H]; [discriminate|exact (A H)].
  Qed.
  (** The replaced function warns exactly for the functions that [jax.jit] would have compiled inside another one. *)
  Definition nested (jits : nat -> bool) (e : event) : list nat := match e with Traced id n => if jits id && (1 <? n) then [id] else [] | Ignored _ => [] end.
  Definition ignored (e : event) : list nat := match e with Ignored id => [id] | Traced _ _ => [] end.
  (** Every function is either always decorated or never. *)
  Fixpoint consistent (jits : nat -> bool) (p : prog) : bool := match p with Node id j _ calls => Bool.eqb j (jits id) && forallb (consistent jits) calls end.
  Theorem C135_ignored : forall jits p, consistent jits p = true -> flat_map ignored (snd (run true 0 p)) = flat_map (nested jits) (snd (run false 0 p)).
  Proof.
    intros jits p H. assert (G : forall p, consistent jits p = true -> forall d d', (0 <? d) = (0 <? d') -> flat_map ignored (snd (run true d p)) = flat_map (nested jits) (snd (run false d' p))); [|apply G; [exact H|reflexivity]].
    clear p H. induction p as [id j op calls IH] using prog_ind'. intros H d d' Hd. cbn [consistent] in H. apply andb_true_iff in H as [Hj H]. apply Bool.eqb_prop in Hj. cbn [run]; cbv zeta. cbn [andb negb]. rewrite andb_true_r.
    assert (A : forall d d', (0 <? d) = (0 <? d') -> flat_map ignored (snd (run_all true d calls)) = flat_map (nested jits) (snd (run_all false d' calls))).
    { clear - IH H. induction IH as [|q l Hq Hl IHl]; intros d d' Hd; [reflexivity|]. cbn [forallb] in H. apply andb_true_iff in H as [H1 H2]. cbn [run_list]. specialize (Hq H1 d d' Hd). destruct (C135_same_results q true false d d') as [R _]. destruct (run true d q) as [v e], (run false d' q) as [v' e']. cbn [fst snd] in *. subst v'.
      destruct v as [v|x]; [|exact Hq]. specialize (IHl H2 d d' Hd). destruct (run_all true d l), (run_all false d' l). cbn [snd] in *. rewrite !flat_map_app, Hq, IHl. reflexivity. }
    set (k := if j && negb (j && (0 <? d)) then S d else d). set (k' := if j then S d' else d').
    assert (Hk : (0 <? k) = (0 <? k')) by (unfold k, k'; destruct j; cbn [andb negb]; [destruct (Nat.ltb_spec 0 d); cbn [negb]; [apply Nat.ltb_lt in H0; rewrite H0|]; reflexivity|exact Hd]).
    specialize (A k k' Hk). destruct (run_all true k calls) as [vs f], (run_all false k' calls) as [vs' f']. cbn [snd] in *. rewrite !flat_map_app. cbn [flat_map ignored nested app]. rewrite A. f_equal. rewrite <- Hj. unfold k'. destruct j; cbn [andb]; [|reflexivity].
    rewrite Hd. change (1 <? S d') with (0 <? d'). destruct (0 <? d'); reflexivity.
  Qed.
End Props.
Print Assumptions C135_same_results.
Print Assumptions C135_order.
Print Assumptions C135_depth.
Print Assumptions C135_flat.
Print Assumptions C135_ignored.

(** What is below an object. *)
Inductive reach : obj -> obj -> Prop :=
| reach_one t a y : reach (Obj t a (Some y)) y
| reach_more t a y z : reach y z -> reach (Obj t a (Some y)) z.
Definition with_arrays (x : obj) : Prop := match x with Obj _ a _ => a = true end.
Fixpoint obj_ind' (P : obj -> Prop) (H0 : forall t a, P (Obj t a None)) (H1 : forall t a y, P y -> P (Obj t a (Some y))) (x : obj) : P x :=
  match x with Obj t a None => H0 t a | Obj t a (Some y) => H1 t a y (obj_ind' P H0 H1 y) end.
(** The warning: a callable of one of the types, and something below it has arrays. *)
Theorem C135_warns : forall x, warns x = true <-> (match x with Obj t _ _ => t <> TOther end) /\ exists y, reach x y /\ with_arrays y.
Proof.
  assert (B : forall x, below x = true <-> exists y, reach x y /\ with_arrays y).
  { induction x as [t a|t a y IH] using obj_ind'; cbn [below]; [split; [discriminate|]; intros (y & H & _); inversion H|]. destruct y as [t' a' w] eqn:Ey. rewrite orb_true_iff, IH, <- Ey. split.
    - intros [H|(z & Hz & Az)]; [exists y; split; [constructor|rewrite Ey; exact H]|exists z; split; [constructor; exact Hz|exact Az]].
    - intros (z & Hz & Az). inversion Hz; subst; [left; exact Az|right; exists z; split; assumption]. }
  intros [t a w]. cbn [warns]. rewrite andb_true_iff, B. destruct t; cbn; intuition (try congruence; try discriminate).
Qed.
Print Assumptions C135_warns.
(** For every transformation of jax: exactly if the function has arrays or something below it; but never for the replaced [jax.jit]. *)
Theorem C135_transformed : forall patched t f, warns (transformed patched t f) = true <-> ~ (patched = true /\ t = Jit) /\ (with_arrays f \/ exists y, reach f y /\ with_arrays y).
Proof.
  intros patched t f. rewrite C135_warns.
  assert (R : forall ty, ((exists y, reach (Obj ty false (Some f)) y /\ with_arrays y) <-> (with_arrays f \/ exists y, reach f y /\ with_arrays y))).
  { intros ty. split; [intros (y & H & A); inversion H; subst; [left; exact A|right; exists y; split; assumption]|]. intros [A|(y & H & A)]; [exists f; split; [constructor|exact A]|exists y; split; [constructor; exact H|exact A]]. }
  destruct t; cbn [transformed]; try (rewrite R; intuition (try discriminate; congruence)). destruct patched; [|rewrite R; intuition (try discriminate; congruence)]. split; [intros [_ (y & H & _)]; inversion H|tauto].
Qed.
Print Assumptions C135_transformed.
(** A container of transformed functions is noticed as an argument of a generated [__init__], but not when it is assigned. *)
Theorem C135_container : forall patched t f l, warns (transformed patched t f) = true -> In (Leaf (transformed patched t f)) l -> warnings_dataclass [Container l] > 0 /\ warnings_init [Container l] = 0 /\ warnings_init l > 0.
Proof.
  intros patched t f l H Hin. set (x := transformed patched t f) in *. clearbody x. split; [|split; [reflexivity|]].
  - unfold warnings_dataclass. cbn [map List.concat]. rewrite app_nil_r. assert (Hx : In x (leaves (Container l))). { clear H. induction l as [|v l IH]; [destruct Hin|]. cbn [leaves]. apply in_or_app. destruct Hin as [->|Hin]; [left; left; reflexivity|right; apply IH; exact Hin]. }
    assert (F : In x (List.filter warns (leaves (Container l)))) by (apply filter_In; auto). destruct (List.filter warns (leaves (Container l))); [destruct F|cbn; lia].
  - unfold warnings_init. induction l as [|v l IH]; [destruct Hin|]. change (list_sum (map warnings_setattr (v :: l))) with (warnings_setattr v + list_sum (map warnings_setattr l)). destruct Hin as [->|Hin]; [cbn [warnings_setattr]; rewrite H; lia|specialize (IH Hin); lia].
Qed.
Print Assumptions C135_container.
(** Flat arguments: both ways warn equally often. *)
Theorem C135_same_warnings : forall xs, warnings_dataclass (map Leaf xs) = warnings_init (map Leaf xs).
Proof.
  intros xs. unfold warnings_dataclass, warnings_init. induction xs as [|x xs IH]; [reflexivity|]. cbn [map List.concat leaves app List.filter warnings_setattr].
  change (list_sum ((if warns x then 1 else 0) :: map warnings_setattr (map Leaf xs))) with ((if warns x then 1 else 0) + list_sum (map warnings_setattr (map Leaf xs))). rewrite <- IH. destruct (warns x); reflexivity.
Qed.
Print Assumptions C135_same_warnings.
(** EQX_ON_ERROR=breakpoint is not only about errors: [filter_jit(f).lower(...)] then raises. *)
Theorem C135_lower : filter_jit_lower false = Ok tt /\ filter_jit_lower true = Err AttributeError.
Proof. split; reflexivity. Qed.
Print Assumptions C135_lower.

(** f (jitted) calls g (jitted) and h; an inner jit is ignored. *)
Example C135_ex_run : let p := Node 0 false (fun l => Ok (list_sum l)) [Node 1 true (fun l => Ok (list_sum l + 10)) [Node 2 true (fun _ => Ok 5) []; Node 3 false (fun _ => Ok 6) []]; Node 4 true (fun _ => Ok 1) []] in
  run true 0 p = (Ok 22, [Traced 0 0; Traced 1 1; Ignored 2; Traced 2 1; Traced 3 1; Traced 4 1]) /\ run false 0 p = (Ok 22, [Traced 0 0; Traced 1 1; Traced 2 2; Traced 3 1; Traced 4 1]) /\
  consistent nat (fun i => Nat.eqb i 1 || Nat.eqb i 2 || Nat.eqb i 4) p = true /\ flat nat p = false /\ flat nat (Node 0 false (fun _ => Ok 0) [Node 1 true (fun _ => Ok 1) []]) = true.
Proof. repeat split. Qed.
Example C135_ex_raise : run true 0 (Node 0 true (fun l => Ok 1) [Node 1 false (fun _ => Err ValueError) []; Node 2 true (fun _ => Ok 5) []]) = (Err ValueError, [Traced 0 1; Traced 1 1]).
Proof. reflexivity. Qed.
Example C135_ex_warns : let linear := Obj TOther true None in warns (transformed false Vmap linear) = true /\ warns (transformed false Jit (transformed false Vmap linear)) = true /\ warns (transformed true Jit linear) = false /\ warns linear = false /\
  warns (transformed false Grad (Obj TFunction false None)) = false /\ warnings_dataclass [Container [Leaf (transformed false Vmap linear)]] = 1.
Proof. repeat split. Qed.
