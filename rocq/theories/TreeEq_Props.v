(** C09: [tree_equal] decides equality of pytrees. *)
From Verif Require Import TreeEq_Proofs.

(** For every list of trees and every tolerance, the answer is true exactly when every
    further tree agrees with the first: same structure, leaves pairwise equal (arrays by
    shape, dtype and value up to the tolerance). Never raises on at least one tree. *)
Theorem C09_equal_iff : forall typematch rtol atol t ts,
  exists o, tree_equal typematch rtol atol (t :: ts) = Ok o /\
    (truth o = true <->
     forall u, In u ts -> same_tree typematch (tol_val rtol) (tol_val atol) t u).
Proof.
  intros. exists (equal_rest typematch rtol atol (RPy true) t ts). split; [reflexivity|].
  eapply tree_equal_spec; reflexivity.
Qed.
Print Assumptions C09_equal_iff.

Definition says_equal tm rt at_ ts : Prop :=
  exists o, tree_equal tm rt at_ ts = Ok o /\ truth o = true.

(** Any number of copies of a tree without NaN are equal, for every tolerance >= 0. *)
Theorem C09_reflexive : forall tm rt at_ t ts,
  (0 <= tol_val rt)%Q -> (0 <= tol_val at_)%Q -> nan_free t ->
  (forall u, In u ts -> u = t) -> says_equal tm rt at_ (t :: ts).
Proof.
  intros tm rt at_ t ts Hr Ha HN HA.
  destruct (C09_equal_iff tm rt at_ t ts) as (o & E & S). exists o; split; auto.
  apply S. intros u Hu. rewrite (HA u Hu). apply same_tree_refl; auto.
Qed.
Print Assumptions C09_reflexive.

(** With zero tolerance the answer does not depend on the order of two trees, and equality
    of all trees with the first means that any two of them are equal. *)
Theorem C09_symmetric : forall tm rt at_ t u,
  (tol_val rt == 0)%Q -> (tol_val at_ == 0)%Q ->
  says_equal tm rt at_ [t; u] -> says_equal tm rt at_ [u; t].
Proof.
  intros tm rt at_ t u Hr Ha (o & E & T).
  destruct (C09_equal_iff tm rt at_ u [t]) as (o' & E' & S'). exists o'; split; auto.
  apply S'. intros v [<-|[]]. apply same_tree_sym; [split; auto|].
  destruct (C09_equal_iff tm rt at_ t [u]) as (o2 & E2 & S2).
  rewrite E in E2; inv E2. apply S2; cbn; auto.
Qed.
Print Assumptions C09_symmetric.

Theorem C09_pairwise : forall tm rt at_ ts i j t u,
  (tol_val rt == 0)%Q -> (tol_val at_ == 0)%Q ->
  (forall v, In v ts -> nan_free v) ->
  says_equal tm rt at_ ts -> nth_error ts i = Some t -> nth_error ts j = Some u ->
  says_equal tm rt at_ [t; u].
Proof.
  intros tm rt at_ ts i j t u Hr Ha HN (o & E & T) Hi Hj.
  destruct ts as [|t0 ts]; [destruct i; discriminate|].
  destruct (C09_equal_iff tm rt at_ t0 ts) as (o' & E' & S').
  rewrite E in E'; inv E'.
  assert (A : forall k v, nth_error (t0 :: ts) k = Some v ->
            same_tree tm (tol_val rt) (tol_val at_) t0 v).
  { intros [|k] v Hv; cbn in Hv.
    - inv Hv. apply same_tree_refl; [rewrite Hr; apply Qle_refl|rewrite Ha; apply Qle_refl|].
      apply HN; left; auto.
    - apply S'; auto. eapply nth_error_In; eauto. }
  destruct (C09_equal_iff tm rt at_ t [u]) as (o2 & E2 & S2). exists o2; split; auto.
  apply S2. intros v [<-|[]].
  eapply same_tree_trans; [split; auto| |eapply A; eauto].
  apply same_tree_sym; [split; auto|eapply A; eauto].
Qed.
Print Assumptions C09_pairwise.

(** The idiom [tree_equal(...) is True]: without JAX arrays the answer is a Python bool;
    as soon as the first tree holds a JAX array, a positive answer is an array instead. *)
Theorem C09_python_bool : forall tm rt at_ t ts,
  (forall u, In u (t :: ts) -> ~ has_leaf is_jax u) ->
  exists b, tree_equal tm rt at_ (t :: ts) = Ok (RPy b).
Proof.
  intros. destruct (equal_rest_py tm rt at_ t ts true H) as [b Hb]. exists b. cbn. rewrite Hb; auto.
Qed.
Print Assumptions C09_python_bool.

Theorem C09_jax_array : forall tm rt at_ t u ts o,
  has_leaf is_jax t -> tree_equal tm rt at_ (t :: u :: ts) = Ok o -> truth o = true ->
  o = RArr true.
Proof.
  intros tm rt at_ t u ts o HJ E T. cbn [tree_equal] in E. injection E as <-.
  apply equal_rest_jax; auto.
Qed.
Print Assumptions C09_jax_array.

(** With a relative tolerance the comparison is not symmetric: 10 is within 10% of 9.1, as
    seen from 10, but not the other way around. *)
Definition scalar (q : Q) : tree obj :=
  Leaf (OArr {| a_class := NpArray; a_shape := []; a_dtype := DFloat 32; a_data := [EFin q] |}).
Theorem C09_tolerance_symmetry_refuted : exists rt at_ t u,
  (0 <= tol_val rt)%Q /\ says_equal false rt at_ [t; u] /\ ~ says_equal false rt at_ [u; t].
Proof.
  exists (TolPy (1#10)), (TolPy 0), (scalar (91#10)), (scalar (101#10)).
  split; [discriminate|]. split.
  - eexists; split; [reflexivity|]. vm_compute. reflexivity.
  - intros (o & E & T). vm_compute in E. inv E. discriminate.
Qed.
Print Assumptions C09_tolerance_symmetry_refuted.

(** Instances. *)
Example C09_ex_mixed :
  tree_equal false (TolPy 0) (TolPy 0)
    [Node 1 [scalar (1#2); Leaf (OPy 0 (PNum (EFin 1)))];
     Node 1 [Leaf (OArr {| a_class := JaxArray; a_shape := []; a_dtype := DFloat 32; a_data := [EFin (2#4)] |});
             Leaf (OPy 1 (PNum (EFin 1)))]] = Ok (RArr true).
Proof. vm_compute. reflexivity. Qed.
Example C09_ex_typematch :
  tree_equal true (TolPy 0) (TolPy 0)
    [Leaf (OPy 0 (PNum (EFin 1))); Leaf (OPy 1 (PNum (EFin 1)))] = Ok (RPy false).
Proof. vm_compute. reflexivity. Qed.
Example C09_ex_nan :
  tree_equal false (TolPy 0) (TolPy 0)
    [Leaf (OPy 0 (PNum ENaN)); Leaf (OPy 0 (PNum ENaN))] = Ok (RPy false).
Proof. vm_compute. reflexivity. Qed.
Example C09_ex_noargs : tree_equal false (TolPy 0) (TolPy 0) [] = Err IndexError.
Proof. reflexivity. Qed.
