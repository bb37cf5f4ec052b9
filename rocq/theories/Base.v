(** Shared vocabulary: exceptions as values. *)
From Coq Require Export List Arith ZArith Lia Bool.
From Coq Require Export ZifyBool ZifyNat.
Export ListNotations.

(** Python exception classes that the modelled code raises explicitly or lets escape.
    Messages are dropped unless a property is about them. *)
Inductive exn :=
| ValueError | TypeError | RuntimeError | KeyError | AttributeError | IndexError
| NotImplementedError | AssertionError | ZeroDivisionError
| OtherError (code : nat).

Inductive res (A : Type) :=
| Ok (a : A)
| Err (e : exn).
Arguments Ok {A} a.
Arguments Err {A} e.

Definition bind {A B} (x : res A) (f : A -> res B) : res B :=
  match x with Ok a => f a | Err e => Err e end.
Definition rmap {A B} (f : A -> B) (x : res A) : res B :=
  match x with Ok a => Ok (f a) | Err e => Err e end.

Declare Scope res_scope.
Notation "x <- e ;; f" := (bind e (fun x => f))
  (at level 61, e at next level, right associativity) : res_scope.
Notation "' p <- e ;; f" := (bind e (fun p => f))
  (at level 61, p pattern, e at next level, right associativity) : res_scope.
Open Scope res_scope.

(** [f] on every element, left to right, stopping at the first exception. *)
Section MapM.
  Context {A B : Type}.
  Variable f : A -> res B.
  Fixpoint mapM (l : list A) : res (list B) :=
    match l with
    | [] => Ok []
    | x :: l' => y <- f x ;; ys <- mapM l' ;; Ok (y :: ys)
    end.
End MapM.

Definition is_ok {A} (x : res A) : bool := match x with Ok _ => true | Err _ => false end.

Lemma bind_ok {A B} (x : res A) (f : A -> res B) b :
  bind x f = Ok b -> exists a, x = Ok a /\ f a = Ok b.
Proof. destruct x as [a|e]; simpl; intros H; [eauto | discriminate]. Qed.

Lemma bind_err {A B} (x : res A) (f : A -> res B) e :
  bind x f = Err e -> x = Err e \/ exists a, x = Ok a /\ f a = Err e.
Proof. destruct x as [a|e']; simpl; intros H; [eauto | left; congruence]. Qed.

Ltac inv H := inversion H; subst; clear H.

(** Invert every [bind _ _ = Ok _] hypothesis. *)
Ltac bind_inv :=
  repeat match goal with
  | H : bind ?x _ = Ok _ |- _ =>
      let a := fresh "a" in let H1 := fresh "Hb" in let H2 := fresh "Hb" in
      apply bind_ok in H; destruct H as [a [H1 H2]]
  | H : Ok _ = Ok _ |- _ => injection H; clear H; intros; subst
  | H : Err _ = Ok _ |- _ => discriminate H
  | H : Ok _ = Err _ |- _ => discriminate H
  end.

Lemma mapM_length {A B} (f : A -> res B) l ys : mapM f l = Ok ys -> length ys = length l.
Proof.
  revert ys; induction l as [|x l IH]; intros ys H; simpl in H; bind_inv; [reflexivity|].
  simpl; f_equal; auto.
Qed.

Lemma mapM_nth {A B} (f : A -> res B) l ys :
  mapM f l = Ok ys -> forall i x, nth_error l i = Some x ->
  exists y, nth_error ys i = Some y /\ f x = Ok y.
Proof.
  revert ys; induction l as [|x l IH]; intros ys H i x0 Hi; simpl in H; bind_inv.
  - destruct i; discriminate.
  - destruct i; simpl in Hi; [injection Hi; intros; subst; simpl; eauto|].
    simpl; eauto.
Qed.

Lemma mapM_ok_iff {A B} (f : A -> res B) l :
  (exists ys, mapM f l = Ok ys) <-> Forall (fun x => exists y, f x = Ok y) l.
Proof.
  induction l as [|x l [IH1 IH2]]; simpl.
  - split; eauto.
  - split.
    + intros [ys H]; bind_inv; constructor; eauto.
    + intros H; inv H. destruct H2 as [y Hy]; destruct (IH2 H3) as [ys Hys].
      exists (y :: ys); rewrite Hy; simpl; rewrite Hys; reflexivity.
Qed.

Lemma nth_error_ext {A} (l l' : list A) :
  (forall i, nth_error l i = nth_error l' i) -> l = l'.
Proof.
  revert l'; induction l as [|x l IH]; intros [|y l'] H; try reflexivity.
  - specialize (H 0); discriminate.
  - specialize (H 0); discriminate.
  - f_equal; [specialize (H 0); simpl in H; congruence|].
    apply IH; intros i; exact (H (S i)).
Qed.

Lemma nth_error_lt {A} (l : list A) i x : nth_error l i = Some x -> i < length l.
Proof. intros H; apply nth_error_Some; congruence. Qed.

Lemma nth_error_ge_ex {A} (l : list A) i : i < length l -> exists x, nth_error l i = Some x.
Proof.
  intros H; destruct (nth_error l i) eqn:E; eauto. apply nth_error_None in E; lia.
Qed.
