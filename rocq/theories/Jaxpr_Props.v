(** C46: finalising a jaxpr preserves its meaning. *)
From Verif Require Import Jaxpr_Model.

(** ** Specification *)
Section Spec.
  Context {V : Type}.
  (** Parameters that denote the same functions. *)
  Inductive mequiv : mparam V -> mparam V -> Prop :=
  | me_fun : forall f g, (forall args, f args = g args) -> mequiv (MFun f) (MFun g)
  | me_open : forall f g, (forall c args, f c args = g c args) -> mequiv (MOpen f) (MOpen g)
  | me_tuple : forall ms ns, Forall2 mequiv ms ns -> mequiv (MTuple ms) (MTuple ns)
  | me_other : forall v, mequiv (MOther v) (MOther v).

  (** A primitive sees its parameters only through what they denote. *)
  Definition extensional (bindp : nat -> list (mparam V) -> list V -> res (list V)) : Prop :=
    forall p ms ns vs, Forall2 mequiv ms ns -> bindp p ms vs = bindp p ns vs.
  (** Every registered rule computes what its primitive computes. *)
  Definition rules_agree (bindp : nat -> list (mparam V) -> list V -> res (list V))
      (rules : nat -> option (list (mparam V) -> list V -> res (list V))) : Prop :=
    forall p r ms vs, rules p = Some r -> r ms vs = bindp p ms vs.

  (** No jaxpr with constvars and no jaxpr inside a nested tuple among the parameters. *)
  Inductive plain_jaxpr : jaxpr V -> Prop :=
  | pl_jaxpr : forall cv iv eqns outs, Forall plain_eqn eqns -> plain_jaxpr (Jaxpr cv iv eqns outs)
  with plain_eqn : eqn V -> Prop :=
  | pl_eqn : forall p ps ins outs, Forall plain_param ps -> plain_eqn (Eqn p ps ins outs)
  with plain_param : param V -> Prop :=
  | pl_item : forall i, plain_item i -> plain_param (PItem i)
  | pl_tuple : forall is, Forall plain_item is -> plain_param (PTuple is)
  with plain_item : item V -> Prop :=
  | pl_closed : forall j c, plain_jaxpr j -> plain_item (IClosed j c)
  | pl_open : forall iv eqns outs, plain_jaxpr (Jaxpr [] iv eqns outs) ->
      plain_item (IOpen (Jaxpr [] iv eqns outs))
  | pl_nested : forall is, Forall (fun i => exists v, i = IOther v) is -> plain_item (INested is)
  | pl_other : forall v, plain_item (IOther v).
End Spec.

(** ** Induction over jaxprs *)
Section Ind.
  Context {V : Type}.
  Variable PJ : jaxpr V -> Prop.
  Variable PE : eqn V -> Prop.
  Variable PP : param V -> Prop.
  Variable PI : item V -> Prop.
  Hypothesis HJ : forall cv iv eqns outs, Forall PE eqns -> PJ (Jaxpr cv iv eqns outs).
  Hypothesis HE : forall p ps ins outs, Forall PP ps -> PE (Eqn p ps ins outs).
  Hypothesis HP1 : forall i, PI i -> PP (PItem i).
  Hypothesis HP2 : forall is, Forall PI is -> PP (PTuple is).
  Hypothesis HI1 : forall j c, PJ j -> PI (IClosed j c).
  Hypothesis HI2 : forall j, PJ j -> PI (IOpen j).
  Hypothesis HI3 : forall is, Forall PI is -> PI (INested is).
  Hypothesis HI4 : forall v, PI (IOther v).

  Fixpoint jaxpr_rec_ (j : jaxpr V) : PJ j :=
    match j with
    | Jaxpr cv iv eqns outs => HJ cv iv eqns outs
        ((fix go l : Forall PE l := match l with
          | [] => Forall_nil PE | q :: l' => Forall_cons q (eqn_rec_ q) (go l') end) eqns)
    end
  with eqn_rec_ (q : eqn V) : PE q :=
    match q with
    | Eqn p ps ins outs => HE p ps ins outs
        ((fix go l : Forall PP l := match l with
          | [] => Forall_nil PP | x :: l' => Forall_cons x (param_rec_ x) (go l') end) ps)
    end
  with param_rec_ (p : param V) : PP p :=
    match p with
    | PItem i => HP1 i (item_rec_ i)
    | PTuple is => HP2 is
        ((fix go l : Forall PI l := match l with
          | [] => Forall_nil PI | x :: l' => Forall_cons x (item_rec_ x) (go l') end) is)
    end
  with item_rec_ (i : item V) : PI i :=
    match i with
    | IClosed j c => HI1 j c (jaxpr_rec_ j)
    | IOpen j => HI2 j (jaxpr_rec_ j)
    | INested is => HI3 is
        ((fix go l : Forall PI l := match l with
          | [] => Forall_nil PI | x :: l' => Forall_cons x (item_rec_ x) (go l') end) is)
    | IOther v => HI4 v
    end.
End Ind.

Section MequivRefl.
  Context {V : Type}.
  Fixpoint mequiv_refl (m : mparam V) : mequiv m m :=
    match m with
    | MFun f => me_fun f f (fun _ => eq_refl)
    | MOpen f => me_open f f (fun _ _ => eq_refl)
    | MTuple ms => me_tuple ms ms
        ((fix go l : Forall2 mequiv l l := match l with
          | [] => Forall2_nil _ | x :: l' => Forall2_cons x x (mequiv_refl x) (go l') end) ms)
    | MOther v => me_other v
    end.
End MequivRefl.

(** ** C46 *)
Section Props.
  Context {V : Type}.
  Variable bindp : nat -> list (mparam V) -> list V -> res (list V).
  Variable multiple_results : nat -> bool.
  Variable rules : nat -> option (list (mparam V) -> list V -> res (list V)).

  Notation ev := (eval_jaxpr bindp multiple_results).
  Notation fin := (finalise_eval bindp multiple_results rules).

  Lemma map_equiv {X} (f g : X -> mparam V) l : Forall (fun x => mequiv (f x) (g x)) l ->
    Forall2 mequiv (map f l) (map g l).
  Proof. induction 1; simpl; constructor; auto. Qed.

  Lemma run_eqns_ext (f g : env -> eqn V -> res env) l :
    Forall (fun q => forall e, f e q = g e q) l -> forall e, run_eqns f e l = run_eqns g e l.
  Proof.
    induction 1 as [|q l Hq _ IH]; intros e; simpl; [reflexivity|].
    rewrite Hq. destruct (g e q); simpl; auto.
  Qed.

  Lemma fin_eqn_eq e p ps ins outs :
    finalise_eqn bindp multiple_results rules e (Eqn p ps ins outs) =
    (vs <- mapM (read e) ins ;;
     ans <- match rules p with Some r => r | None => bindp p end
              (map (finalise_param bindp multiple_results rules) ps) vs ;;
     write_out multiple_results e p outs ans).
  Proof. reflexivity. Qed.
  Lemma ev_eqn_eq e p ps ins outs :
    eval_eqn bindp multiple_results e (Eqn p ps ins outs) =
    (vs <- mapM (read e) ins ;;
     ans <- bindp p (map (mean_param bindp multiple_results) ps) vs ;;
     write_out multiple_results e p outs ans).
  Proof. reflexivity. Qed.
  Lemma fin_eq cv iv eqns outs c a :
    fin (Jaxpr cv iv eqns outs) c a =
    (e0 <- write_all [] cv c ;; e1 <- write_all e0 iv a ;;
     e2 <- run_eqns (finalise_eqn bindp multiple_results rules) e1 eqns ;; mapM (read e2) outs).
  Proof. reflexivity. Qed.
  Lemma ev_eq cv iv eqns outs c a :
    ev (Jaxpr cv iv eqns outs) c a =
    (e0 <- write_all [] cv c ;; e1 <- write_all e0 iv a ;;
     e2 <- run_eqns (eval_eqn bindp multiple_results) e1 eqns ;; mapM (read e2) outs).
  Proof. reflexivity. Qed.

  (** Evaluating the finalised jaxpr is evaluating the original one, errors included. *)
  Theorem C46_preserves j :
    extensional bindp -> rules_agree bindp rules ->
    forall consts args, fin j consts args = ev j consts args.
  Proof.
    intros Hext Hag.
    apply (jaxpr_rec_ (fun j => forall c a, fin j c a = ev j c a)
             (fun q => forall e, finalise_eqn bindp multiple_results rules e q
                                 = eval_eqn bindp multiple_results e q)
             (fun p => mequiv (finalise_param bindp multiple_results rules p)
                              (mean_param bindp multiple_results p))
             (fun i => mequiv (maybe_finalise bindp multiple_results rules i)
                              (mean_item bindp multiple_results i))); clear j.
    - intros cv iv eqns outs H c a. rewrite fin_eq, ev_eq.
      destruct (write_all [] cv c) as [e0|]; cbn [bind]; [|reflexivity].
      destruct (write_all e0 iv a) as [e1|]; cbn [bind]; [|reflexivity].
      rewrite (run_eqns_ext _ _ _ H). reflexivity.
    - intros p ps ins outs H e. rewrite fin_eqn_eq, ev_eqn_eq.
      destruct (mapM (read e) ins) as [vs|]; cbn [bind]; [|reflexivity].
      assert (E : match rules p with Some r => r | None => bindp p end
                    (map (finalise_param bindp multiple_results rules) ps) vs
                  = bindp p (map (mean_param bindp multiple_results) ps) vs).
      { rewrite <- (Hext p _ _ vs (map_equiv _ _ _ H)). destruct (rules p) as [r|] eqn:E; [|reflexivity].
        apply Hag; exact E. }
      rewrite E. reflexivity.
    - intros i H. exact H.
    - intros is H. simpl. constructor. apply map_equiv, H.
    - intros j c H. simpl. constructor. intros args; apply H.
    - intros [cv iv eqns outs] H. simpl. destruct cv; [constructor; intros args; apply H|].
      apply mequiv_refl.
    - intros is H. simpl. apply mequiv_refl.
    - intros v. simpl. constructor.
  Qed.

  Lemma concat_unruled {X} (f : X -> list nat) l :
    Forall (fun x => Forall (fun p => rules p = None) (f x)) l ->
    Forall (fun p => rules p = None) (concat (map f l)).
  Proof. induction 1; simpl; [constructor|]. apply Forall_app; auto. Qed.

  Lemma fprims_eqn_eq recorded p ps ins outs :
    fprims_eqn bindp multiple_results rules recorded (Eqn p ps ins outs) =
    match rules p with
    | Some _ => recorded p (map (finalise_param bindp multiple_results rules) ps)
    | None => p :: concat (map (fprims_param bindp multiple_results rules recorded) ps)
    end.
  Proof. reflexivity. Qed.

  (** Nothing that has a rule is left, if the rules leave nothing that has a rule. *)
  Theorem C46_complete recorded j :
    (forall p r ms, rules p = Some r -> Forall (fun q => rules q = None) (recorded p ms)) ->
    plain_jaxpr j ->
    Forall (fun p => rules p = None) (finalised_prims bindp multiple_results rules recorded j).
  Proof.
    intros Hrec.
    apply (jaxpr_rec_
      (fun j => plain_jaxpr j -> Forall (fun p => rules p = None) (finalised_prims bindp multiple_results rules recorded j))
      (fun q => plain_eqn q -> Forall (fun p => rules p = None) (fprims_eqn bindp multiple_results rules recorded q))
      (fun x => plain_param x -> Forall (fun p => rules p = None) (fprims_param bindp multiple_results rules recorded x))
      (fun i => plain_item i -> Forall (fun p => rules p = None) (fprims_item bindp multiple_results rules recorded i)));
      clear j.
    - intros cv iv eqns outs H Hp. inversion Hp as [? ? ? ? HF]; subst.
      apply (concat_unruled (fprims_eqn bindp multiple_results rules recorded)).
      rewrite Forall_forall in *. intros q Hq. apply H; auto.
    - intros p ps ins outs H Hp. inversion Hp as [? ? ? ? HF]; subst.
      rewrite fprims_eqn_eq. destruct (rules p) as [r|] eqn:E; [eapply Hrec; exact E|].
      constructor; [exact E|]. apply concat_unruled.
      rewrite Forall_forall in *. intros q Hq. apply H; auto.
    - intros i H Hp. inversion Hp; subst. simpl. auto.
    - intros is H Hp. inversion Hp as [|? HF]; subst.
      apply (concat_unruled (fprims_item bindp multiple_results rules recorded)).
      rewrite Forall_forall in *. intros q Hq. apply H; auto.
    - intros j c H Hp. inversion Hp; subst. simpl. auto.
    - intros j H Hp. inversion Hp; subst. simpl in *. apply H; assumption.
    - intros is _ Hp. inversion Hp as [| |? HF|]; subst.
      change (fprims_item bindp multiple_results rules recorded (INested is))
        with (concat (map (@prims_item V) is)).
      assert (E : concat (map (@prims_item V) is) = []).
      { clear Hp. induction HF as [|i l [v ->] _ IH]; simpl; auto. }
      rewrite E. constructor.
    - intros v _. simpl. constructor.
  Qed.
End Props.
Print Assumptions C46_preserves.
Print Assumptions C46_complete.

(** ** What evaluation is: one equation after the other; environments are functions. *)
Section Steps.
  Context {V : Type}.
  Variable bindp : nat -> list (mparam V) -> list V -> res (list V).
  Variable multiple_results : nat -> bool.
  Definition value (e : nat -> option V) (a : atom V) (v : V) : Prop := match a with Lit w => v = w | Var x => e x = Some v end.
  (** Later variables win over earlier ones. *)
  Definition assign (e : nat -> option V) (xs : list nat) (vs : list V) (e' : nat -> option V) : Prop :=
    length xs = length vs /\
    forall x, (~ In x xs -> e' x = e x) /\
      (forall i v, nth_error xs i = Some x -> nth_error vs i = Some v -> (forall j, i < j -> nth_error xs j <> Some x) -> e' x = Some v).
  Inductive steps : (nat -> option V) -> list (eqn V) -> (nat -> option V) -> Prop :=
  | st_nil : forall e, steps e [] e
  | st_cons : forall e p ps ins outs vs ans e1 qs e2,
      Forall2 (value e) ins vs -> bindp p (map (mean_param bindp multiple_results) ps) vs = Ok ans ->
      (if multiple_results p then assign e outs ans e1 else exists x outs' v, outs = x :: outs' /\ ans = [v] /\ assign e [x] [v] e1) ->
      steps e1 qs e2 -> steps e (Eqn p ps ins outs :: qs) e2.
  Definition evaluates (j : jaxpr V) (consts args outs : list V) : Prop :=
    let 'Jaxpr cv iv eqns os := j in
    exists e0 e1 e2, assign (fun _ => None) cv consts e0 /\ assign e0 iv args e1 /\ steps e1 eqns e2 /\ Forall2 (value e2) os outs.

  Lemma write_all_cons (e : @env V) x v xs vs : write_all e (x :: xs) (v :: vs) = write_all ((x, v) :: e) xs vs.
  Proof. reflexivity. Qed.
  Lemma write_all_spec : forall xs vs (e e' : @env V), write_all e xs vs = Ok e' ->
    assign (env_get e) xs vs (env_get e').
  Proof.
    induction xs as [|x xs IH]; intros [|v vs] e e' H; cbn [write_all] in H; try discriminate.
    - injection H as <-. split; [auto|]. intros x. split; [auto|]. intros i v Hi. destruct i; discriminate.
    - apply IH in H as [HL H]. split; [cbn; auto|]. intros y. destruct (H y) as [H1 H2]. cbn [env_get] in H1. split.
      + intros Hn. cbn [In] in Hn. rewrite H1 by tauto. destruct (Nat.eqb_spec y x) as [E|]; [exfalso; apply Hn; left; auto|auto].
      + intros [|i] w Hi Hv Hlast; cbn in Hi, Hv.
        * injection Hi as <-. injection Hv as <-. rewrite H1, Nat.eqb_refl; [auto|]. intros Hin. apply In_nth_error in Hin as [j Hj]. apply (Hlast (S j)); [lia|exact Hj].
        * apply (H2 i); auto. intros j Hj. apply (Hlast (S j)). lia.
  Qed.
  Lemma assign_ext e1 e2 xs vs e1' e2' : (forall x, e1 x = e2 x) -> assign e1 xs vs e1' -> assign e2 xs vs e2' -> forall x, e1' x = e2' x.
  Proof.
    intros He [L1 H1] [L2 H2] x. destruct (in_dec Nat.eq_dec x xs) as [Hin|Hn].
    - assert (HK : exists i, nth_error xs i = Some x /\ forall j, i < j -> nth_error xs j <> Some x).
      { clear - Hin. induction xs as [|y xs IH]; [destruct Hin|]. destruct (in_dec Nat.eq_dec x xs) as [H|H].
        - destruct (IH H) as (i & Hi & Hl). exists (S i). split; [auto|]. intros [|j] Hj; [lia|]. cbn. apply Hl. lia.
        - destruct Hin as [->|]; [|tauto]. exists 0. split; [auto|]. intros [|j] Hj; [lia|]. cbn. intros E. apply H. eapply nth_error_In; eauto. }
      destruct HK as (i & Hi & Hl). assert (Hlt : i < length vs) by (rewrite <- L1; apply nth_error_Some; congruence).
      destruct (nth_error vs i) as [v|] eqn:Ev; [|apply nth_error_None in Ev; lia].
      rewrite (proj2 (H1 x) i v Hi Ev Hl), (proj2 (H2 x) i v Hi Ev Hl). auto.
    - rewrite (proj1 (H1 x) Hn), (proj1 (H2 x) Hn). auto.
  Qed.
  Lemma assign_write xs vs (e : @env V) f f' : (forall x, env_get e x = f x) -> assign f xs vs f' -> exists e', write_all e xs vs = Ok e' /\ forall x, env_get e' x = f' x.
  Proof.
    intros He HA. assert (HW : exists e', write_all e xs vs = Ok e').
    { clear - HA. destruct HA as [HL _]. revert vs e HL. induction xs as [|x xs IH]; intros [|v vs] e HL; try discriminate; [eexists; reflexivity|]. cbn [write_all]. apply IH. auto. }
    destruct HW as [e' HW]. exists e'. split; [auto|]. eapply assign_ext; [exact He|apply write_all_spec; exact HW|exact HA].
  Qed.
  Lemma read_spec (e : @env V) f : (forall x, env_get e x = f x) -> forall os vs, mapM (read e) os = Ok vs <-> Forall2 (value f) os vs.
  Proof.
    intros He. assert (H1 : forall a v, read e a = Ok v <-> value f a v).
    { intros [w|x] v; cbn; [split; congruence|]. rewrite He. destruct (f x); split; congruence. }
    induction os as [|a os IH]; intros vs; cbn [mapM].
    - split; [intros H; injection H as <-; constructor|intros H; inversion H; auto].
    - split.
      + intros H. apply bind_ok in H as (v & Hv & H). apply bind_ok in H as (vs' & Hvs & H). injection H as <-. constructor; [apply H1|apply IH]; auto.
      + intros H. inversion H as [|? v ? vs' Hv Hvs]; subst. apply H1 in Hv. apply IH in Hvs. rewrite Hv. cbn [bind]. rewrite Hvs. auto.
  Qed.
  Lemma value_ext f g os vs : (forall x, f x = g x) -> Forall2 (value f) os vs -> Forall2 (value g) os vs.
  Proof. intros E H. induction H as [|a v os vs H _ IH]; constructor; auto. destruct a; cbn in *; congruence. Qed.
  Lemma steps_fwd : forall qs (e e' : @env V), run_eqns (eval_eqn bindp multiple_results) e qs = Ok e' -> steps (env_get e) qs (env_get e').
  Proof.
    induction qs as [|[p ps ins outs] qs IH]; intros e e' H; cbn [run_eqns] in H; [injection H as <-; constructor|].
    apply bind_ok in H as (e1 & H1 & H). rewrite ev_eqn_eq in H1. apply bind_ok in H1 as (vs & Hvs & H1). apply bind_ok in H1 as (ans & Ha & H1).
    eapply st_cons with (e1 := env_get e1); [apply (read_spec e); [auto|exact Hvs]|exact Ha| |apply IH; exact H].
    unfold write_out in H1. destruct (multiple_results p); [apply write_all_spec; exact H1|].
    destruct outs as [|x outs]; [discriminate|]. destruct ans as [|v [|? ?]]; try discriminate. injection H1 as <-. exists x, outs, v. split; [auto|]. split; [auto|]. apply write_all_spec. reflexivity.
  Qed.
  Lemma steps_bwd : forall qs f f' (e : @env V), (forall x, env_get e x = f x) -> steps f qs f' ->
    exists e', run_eqns (eval_eqn bindp multiple_results) e qs = Ok e' /\ forall x, env_get e' x = f' x.
  Proof.
    induction qs as [|q qs IH]; intros f f' e He H; inversion H as [|? p ps ins outs vs ans f1 ? ? Hv Hb Hw Hs]; subst; [exists e; auto|].
    cbn [run_eqns]. rewrite ev_eqn_eq. apply (read_spec e f He) in Hv. rewrite Hv. cbn [bind]. rewrite Hb. cbn [bind].
    assert (HW : exists e1, write_out multiple_results e p outs ans = Ok e1 /\ forall x, env_get e1 x = f1 x).
    { unfold write_out. destruct (multiple_results p); [apply (assign_write _ _ e f f1 He Hw)|]. destruct Hw as (x & outs' & v & -> & -> & Hw).
      destruct (assign_write [x] [v] e f f1 He Hw) as (e1 & E1 & H1). cbn in E1. injection E1 as <-. eauto. }
    destruct HW as (e1 & -> & H1). cbn [bind]. apply (IH f1); auto.
  Qed.
  Theorem C46_evaluates j consts args outs : eval_jaxpr bindp multiple_results j consts args = Ok outs <-> evaluates j consts args outs.
  Proof.
    destruct j as [cv iv eqns os]. rewrite ev_eq. cbn [evaluates]. split.
    - intros H. apply bind_ok in H as (e0 & H0 & H). apply bind_ok in H as (e1 & H1 & H). apply bind_ok in H as (e2 & H2 & H).
      exists (env_get e0), (env_get e1), (env_get e2). split; [apply (write_all_spec _ _ []); exact H0|]. split; [apply write_all_spec; exact H1|].
      split; [apply steps_fwd; exact H2|]. apply (read_spec e2); auto.
    - intros (f0 & f1 & f2 & A0 & A1 & HS & HO). destruct (assign_write cv consts [] (fun _ => None) f0 (fun _ => eq_refl) A0) as (e0 & -> & E0). cbn [bind].
      destruct (assign_write iv args e0 f0 f1 E0 A1) as (e1 & -> & E1). cbn [bind]. destruct (steps_bwd _ _ _ e1 E1 HS) as (e2 & -> & E2). cbn [bind].
      apply (read_spec e2 f2 E2). exact HO.
  Qed.
End Steps.
Print Assumptions C46_evaluates.

(** An open jaxpr with constvars is left alone: a primitive with a rule (number 1) survives
    inside of it. *)
Theorem C46_constvars_kept :
  exists (j : jaxpr nat) rules,
    rules 1 <> None /\
    In 1 (finalised_prims (fun _ _ _ => Ok []) (fun _ => true) rules (fun _ _ => []) j).
Proof.
  exists (Jaxpr [] [] [Eqn 0 [PItem (IOpen (Jaxpr [7] [] [Eqn 1 [] [] []] []))] [] []] []).
  exists (fun p => if Nat.eqb p 1 then Some (fun _ _ => Ok []) else None).
  split; [discriminate|]. simpl. right; left; reflexivity.
Qed.
Print Assumptions C46_constvars_kept.

(** Non-vacuity: primitive 0 adds, primitive 1 (with a rule) is the identity, primitive 2
    calls the jaxpr in its parameter. *)
Definition ex_bind (p : nat) (ms : list (mparam nat)) (vs : list nat) : res (list nat) :=
  match p, ms, vs with
  | 0, _, [a; b] => Ok [a + b]
  | 1, _, [a] => Ok [a]
  | 2, [MFun f], _ => f vs
  | _, _, _ => Err TypeError
  end.
Definition ex_rules (p : nat) : option (list (mparam nat) -> list nat -> res (list nat)) :=
  if Nat.eqb p 1 then Some (ex_bind 1) else None.
Definition ex_inner : jaxpr nat :=
  Jaxpr [9] [0] [Eqn 1 [] [Var 0] [1]; Eqn 0 [] [Var 1; Var 9] [2]] [Var 2].
Definition ex_outer : jaxpr nat :=
  Jaxpr [] [0] [Eqn 2 [PItem (IClosed ex_inner [10])] [Var 0] [1]] [Var 1; Lit 5].
Example jaxpr_example :
  extensional ex_bind /\ rules_agree ex_bind ex_rules /\ plain_jaxpr ex_outer /\
  finalise_eval ex_bind (fun p => Nat.eqb p 2) ex_rules ex_outer [] [32] = Ok [42; 5] /\
  finalised_prims ex_bind (fun p => Nat.eqb p 2) ex_rules (fun _ _ => []) ex_outer = [2; 0].
Proof.
  split; [|split; [|split; [|split; reflexivity]]].
  - intros p ms ns vs H. destruct p as [|[|[|p]]]; simpl; try reflexivity.
    inversion H as [|m n ms' ns' Hm Ht]; subst; [reflexivity|].
    inversion Hm; subst; inversion Ht; subst; auto.
  - intros p r ms vs. unfold ex_rules. destruct (Nat.eqb_spec p 1) as [->|]; [|discriminate].
    intros H; injection H as <-. reflexivity.
  - repeat (constructor; simpl).
Qed.
