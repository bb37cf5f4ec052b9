(** C108: low-overhead training loops. *)
From Verif Require Import Base Tree_Model Tree_Facts FlatTrain_Model.

(** ** Specification *)
(** [run step m o data m' o']: the step is applied to one batch after the other. *)
Section Spec.
  Context {L B : Type}.
  Notation T := (tree L).
  Inductive run (step : T -> T -> B -> res (T * T)) : T -> T -> list B -> T -> T -> Prop :=
  | run_nil m o : run step m o [] m o
  | run_cons m o b data m1 o1 m2 o2 : step m o b = Ok (m1, o1) -> run step m1 o1 data m2 o2 -> run step m o (b :: data) m2 o2.
  (** Same structure: equal once the leaves are forgotten. *)
  Fixpoint shape (t : T) : tree unit :=
    match t with Leaf _ => Leaf tt | TNone => TNone | Node k cs => Node k (map shape cs) end.
  Definition keeps (step : T -> T -> B -> res (T * T)) : Prop :=
    forall m o b m' o', step m o b = Ok (m', o') -> shape m' = shape m /\ shape o' = shape o.
  (** [recast d t]: the leaves of [t], in order, in the structure of [d]. *)
  Inductive leaves_of : T -> list L -> Prop :=
  | lo_leaf a : leaves_of (Leaf a) [a]
  | lo_none : leaves_of TNone []
  | lo_node k cs ls : leaves_all cs ls -> leaves_of (Node k cs) ls
  with leaves_all : list T -> list L -> Prop :=
  | la_nil : leaves_all [] []
  | la_cons c cs l ls : leaves_of c l -> leaves_all cs ls -> leaves_all (c :: cs) (l ++ ls).
  Definition recast (d t t' : T) : Prop := shape t' = shape d /\ exists ls, leaves_of t ls /\ leaves_of t' ls.
End Spec.

Section FlatTrain.
  Context {L B : Type}.
  Notation T := (tree L).
  Variable step : T -> T -> B -> res (T * T).

  Lemma shape_treedef (t : T) : shape t = treedef no_leaf t.
  Proof.
    induction t as [a| |k cs IH] using tree_ind'; try reflexivity. cbn. f_equal.
    induction IH as [|c cs Hc _ IHcs]; [reflexivity|]. cbn. f_equal; auto.
  Qed.
  Lemma flat_steps_keeps : keeps step -> forall data m o,
    flat_steps step (treedef no_leaf m) (treedef no_leaf o) (leaves no_leaf m) (leaves no_leaf o) data =
    rmap (fun r => (leaves no_leaf (fst r), leaves no_leaf (snd r))) (plain_loop step m o data).
  Proof.
    intros K. induction data as [|b data IH]; intros m o; [reflexivity|]. cbn [flat_steps plain_loop]. unfold flat_step.
    rewrite !unflatten_flatten. cbn [bind]. destruct (step m o b) as [[m1 o1]|e] eqn:E; [|reflexivity]. cbn [bind].
    destruct (K _ _ _ _ _ E) as [K1 K2]. rewrite !shape_treedef in K1, K2. rewrite <- K1, <- K2. apply IH.
  Qed.
  Lemma plain_keeps : keeps step -> forall data m o m' o', plain_loop step m o data = Ok (m', o') -> shape m' = shape m.
  Proof.
    intros K. induction data as [|b data IH]; intros m o m' o' H; cbn in H; [injection H as <- <-; reflexivity|].
    apply bind_ok in H as ([m1 o1] & E & H). destruct (K _ _ _ _ _ E) as [K1 _]. rewrite <- K1. eauto.
  Qed.
  Lemma plain_run data : forall m o m' o', plain_loop step m o data = Ok (m', o') <-> run step m o data m' o'.
  Proof.
    induction data as [|b data IH]; intros m o m' o'; cbn; split; intros H.
    - injection H as <- <-. constructor.
    - inversion H; subst. reflexivity.
    - apply bind_ok in H as ([m1 o1] & E & H). econstructor; [exact E|]. apply IH. exact H.
    - inversion H as [|? ? ? ? m1 o1 ? ? E R]; subst. rewrite E. cbn. apply IH. exact R.
  Qed.

  (** If the step keeps the structures, the flat loop gives what the plain loop gives, errors included. *)
  Theorem C108_flat : keeps step -> forall model opt_state data,
    flat_loop step model opt_state data = rmap fst (plain_loop step model opt_state data).
  Proof.
    intros K m o data. unfold flat_loop. rewrite (flat_steps_keeps K). destruct (plain_loop step m o data) as [[m' o']|e] eqn:E; [|reflexivity].
    cbn. pose proof (plain_keeps K _ _ _ _ _ E) as HS. rewrite !shape_treedef in HS. rewrite <- HS. apply unflatten_flatten.
  Qed.
  Theorem C108_run : keeps step -> forall model opt_state data out,
    flat_loop step model opt_state data = Ok out <-> exists opt', run step model opt_state data out opt'.
  Proof.
    intros K m o data out. rewrite (C108_flat K). split.
    - destruct (plain_loop step m o data) as [[m' o']|e] eqn:E; cbn; intros H; [|discriminate]. injection H as <-. exists o'. apply plain_run. exact E.
    - intros (o' & R). apply plain_run in R. rewrite R. reflexivity.
  Qed.

  (** Without that: every step is followed by putting the new leaves into the structures from before the loop, which
      fails if there are not as many of them. *)
  Lemma leaves_of_labels (t : T) : exists ls, leaves_of t ls /\ leaves no_leaf t = map Leaf ls.
  Proof.
    induction t as [a| |k cs IH] using tree_ind'; [exists [a]; split; [constructor|reflexivity]|exists []; split; [constructor|reflexivity]|].
    assert (G : exists ls, leaves_all cs ls /\ concat (map (leaves no_leaf) cs) = map Leaf ls).
    { induction IH as [|c cs (l & Hl & El) _ (ls & Hls & Els)]; [exists []; split; [constructor|reflexivity]|].
      exists (l ++ ls). split; [constructor; auto|]. cbn. rewrite El, Els, map_app. reflexivity. }
    destruct G as (ls & H & E). exists ls. split; [constructor; exact H|exact E].
  Qed.
  Lemma leaves_of_det (t : T) ls : leaves_of t ls -> leaves no_leaf t = map Leaf ls.
  Proof.
    revert ls. induction t as [a| |k cs IH] using tree_ind'; intros ls H; inversion H as [| |? ? ? HA]; subst; try reflexivity.
    cbn. clear H. revert ls HA. induction IH as [|c cs Hc _ IHcs]; intros ls HA; inversion HA; subst; [reflexivity|].
    cbn. rewrite map_app. f_equal; auto.
  Qed.
  Lemma map_Leaf_inj (l l' : list L) : map Leaf l = map Leaf l' -> l = l'.
  Proof. revert l'. induction l as [|a l IH]; intros [|b l'] H; try discriminate; [reflexivity|]. injection H as <- H. f_equal. auto. Qed.
  Lemma unflatten_recast (d t : T) t' : unflatten (treedef no_leaf d) (leaves no_leaf t) = Ok t' <-> recast d t t'.
  Proof.
    destruct (leaves_of_labels t) as (ls & Hls & Els). split; intros H.
    - unfold unflatten in H. apply bind_ok in H as ([t1 rest] & H1 & H2). destruct rest; [|discriminate]. injection H2 as <-.
      apply unflat_leaves in H1 as [HD HL].
      2:{ rewrite Els. apply Forall_forall. intros x Hx. apply in_map_iff in Hx as (a & <- & _). exists a. reflexivity. }
      split; [rewrite !shape_treedef; exact HD|]. exists ls. split; [exact Hls|].
      destruct (leaves_of_labels t1) as (ls1 & H1 & E1). rewrite app_nil_r, Els, E1 in HL. apply map_Leaf_inj in HL. subst. exact H1.
    - destruct H as (HS & ls' & H1 & H2). apply leaves_of_det in H1, H2. rewrite !shape_treedef in HS. rewrite H1, <- H2, <- HS. apply unflatten_flatten.
  Qed.
End FlatTrain.
Section General.
  Context {L B : Type}.
  Notation T := (tree L).
  Variable step : T -> T -> B -> res (T * T).
  Inductive recast_run (m0 o0 : T) : T -> T -> list B -> T -> Prop :=
  | rr_nil m o m' : recast m0 m m' -> recast_run m0 o0 m o [] m'
  | rr_cons m o m1 o1 b data m2 o2 out : recast m0 m m1 -> recast o0 o o1 -> step m1 o1 b = Ok (m2, o2) ->
      recast_run m0 o0 m2 o2 data out -> recast_run m0 o0 m o (b :: data) out.
  Theorem C108_general : forall model opt_state data out,
    flat_loop step model opt_state data = Ok out <-> recast_run model opt_state model opt_state data out.
  Proof.
    intros m0 o0 data out. unfold flat_loop.
    assert (G : forall data m o, ('(fm, _) <- flat_steps step (treedef no_leaf m0) (treedef no_leaf o0) (leaves no_leaf m) (leaves no_leaf o) data ;;
        unflatten (treedef no_leaf m0) fm) = Ok out <-> recast_run m0 o0 m o data out).
    { clear data. induction data as [|b data IH]; intros m o; cbn [flat_steps bind].
      - rewrite unflatten_recast. split; [constructor; assumption|intros H; inversion H; subst; assumption].
      - unfold flat_step. split.
        + intros H. apply bind_ok in H as ([fm fo] & H & HU). apply bind_ok in H as ([fm1 fo1] & H & HR).
          apply bind_ok in H as (m1 & U1 & H). apply bind_ok in H as (o1 & U2 & H). apply bind_ok in H as ([m2 o2] & E & H). injection H as <- <-.
          apply unflatten_recast in U1, U2. econstructor; eauto. apply IH. rewrite HR. exact HU.
        + intros H. inversion H as [|? ? m1 o1 ? ? m2 o2 ? R1 R2 E R]; subst. apply unflatten_recast in R1, R2. rewrite R1, R2. cbn [bind]. rewrite E. cbn [bind].
          apply IH in R. exact R. }
    apply G.
  Qed.
End General.
Print Assumptions C108_flat.
Print Assumptions C108_run.
Print Assumptions C108_general.

(** ** Examples. A step that adds the batch to every leaf keeps the structure. *)
Definition ex_step (m o : tree nat) (b : nat) : res (tree nat * tree nat) :=
  Ok (tmap no_leaf (fun x => match x with Leaf a => Leaf (a + b) | t => t end) m, o).
Example C108_ex : flat_loop ex_step (Node 5 [Leaf 1; TNone; Node 6 [Leaf 2]]) (Leaf 0) [10; 100] = Ok (Node 5 [Leaf 111; TNone; Node 6 [Leaf 112]]).
Proof. reflexivity. Qed.
(** A step that changes the structure: kinds 5 and 6 stand for a class with a static field of value 0 and 1. The plain
    loop sets it; the flat loop silently returns it unset. With another number of leaves the flat loop raises. *)
Definition ex_change (m o : tree nat) (b : nat) : res (tree nat * tree nat) :=
  match m with Node 5 cs => Ok (Node 6 cs, o) | _ => Ok (m, o) end.
Definition ex_grow (m o : tree nat) (b : nat) : res (tree nat * tree nat) :=
  match m with Node k cs => Ok (Node k (Leaf b :: cs), o) | _ => Ok (m, o) end.
Theorem C108_any_step_refuted :
  ~ (forall step model opt_state data, flat_loop (L := nat) (B := nat) step model opt_state data = rmap fst (plain_loop step model opt_state data)) /\
  plain_loop ex_change (Node 5 [Leaf 1]) TNone [0] = Ok (Node 6 [Leaf 1], TNone) /\
  flat_loop ex_change (Node 5 [Leaf 1]) TNone [0] = Ok (Node 5 [Leaf 1]) /\
  flat_loop ex_grow (Node 5 [Leaf 1]) TNone [0] = Err ValueError.
Proof.
  split; [|repeat split; reflexivity]. intros H. specialize (H ex_change (Node 5 [Leaf 1]) TNone [0]). discriminate H.
Qed.
Print Assumptions C108_any_step_refuted.
