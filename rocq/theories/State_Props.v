(** C16-C19: [nn.State] and [nn.make_with_state]. *)
From Verif Require Import TreeAt_Proofs5.
From Verif Require Import State_Proofs.

(** C16. A successful [set] or [update] creates a new live object, kills the old one and touches
    no other object. *)
Theorem C16_set_consumes : forall L S (asarray : L -> res L) (struct : L -> S) seqb h s i v h' s',
  state_set asarray struct seqb h s i v = (h', Ok s') ->
  s' = length h /\ length h' = Datatypes.S (length h) /\
  deref h s <> None /\ deref h' s = None /\ deref h' s' <> None /\
  forall x, x < length h -> x <> s -> deref h' x = deref h x.
Proof.
  intros L S a st q h s i v h' s' H. apply set_ok in H as (d & m & old & v' & Hd & _ & _ & _ & _ & (A & B & C & D & E & F)).
  repeat split; auto; congruence.
Qed.
Print Assumptions C16_set_consumes.
Theorem C16_update_consumes : forall L h s x h' s',
  @state_update L h s x = (h', Ok s') ->
  s' = length h /\ length h' = Datatypes.S (length h) /\
  deref h s <> None /\ deref h' s = None /\ deref h' s' <> None /\
  forall x, x < length h -> x <> s -> deref h' x = deref h x.
Proof.
  intros L h s x h' s' H. apply update_ok in H as (d & s2 & items & d' & Hd & _ & _ & _ & (A & B & C & D & E & F)).
  repeat split; auto; congruence.
Qed.
Print Assumptions C16_update_consumes.

(** Every method of a dead object raises and changes nothing; so does handing it to [update]. *)
Theorem C16_dead_raises : forall L S (asarray : L -> res L) (struct : L -> S) seqb h s,
  deref h s = None ->
  (forall i, state_get h s i = Err ValueError) /\
  (forall i v, state_set asarray struct seqb h s i v = (h, Err ValueError)) /\
  (forall m, state_substate h s m = (h, Err ValueError)) /\
  (forall x, state_update h s x = (h, Err ValueError)) /\
  state_flatten h s = Err ValueError /\
  (forall s1, deref h s1 <> None -> state_update h s1 (Some s) = (h, Err AttributeError)).
Proof. intros L S. exact dead_raises. Qed.
Print Assumptions C16_dead_raises.

(** A call that raises leaves every object as it was. *)
Theorem C16_failure_changes_nothing : forall L S (asarray : L -> res L) (struct : L -> S) seqb h o,
  snd (step asarray struct seqb h o) = false -> fst (step asarray struct seqb h o) = h.
Proof.
  intros L S a st q h o. destruct o as [s i|s i v|s m|s y|s|ks vs|m]; cbn [step]; auto.
  - destruct (state_set a st q h s i v) as [h' [s'|e]] eqn:E; cbn; [discriminate|]. intros _. eapply set_err; eauto.
  - destruct (state_substate h s m) as [h' [s'|e]] eqn:E; cbn; [discriminate|]. intros _. eapply substate_err; eauto.
  - destruct (state_update h s y) as [h' [s'|e]] eqn:E; cbn; [discriminate|]. intros _. eapply update_err; eauto.
  - unfold state_unflatten, alloc. destruct (Nat.eqb _ _); cbn; [discriminate|auto].
  - unfold state_init, alloc. destruct (init_dict _ _ _); cbn; [discriminate|auto].
Qed.
Print Assumptions C16_failure_changes_nothing.

(** Only a successful [set] or [update] of the object itself changes what it holds. *)
Theorem C16_only_writes_kill : forall L S (asarray : L -> res L) (struct : L -> S) seqb h o x, x < length h ->
  (subject o = Some x /\ writes o = true /\ snd (step asarray struct seqb h o) = true /\
   deref (fst (step asarray struct seqb h o)) x = None) \/
  deref (fst (step asarray struct seqb h o)) x = deref h x /\
  ~ (subject o = Some x /\ writes o = true /\ snd (step asarray struct seqb h o) = true).
Proof. intros L S. exact step_deref. Qed.
Print Assumptions C16_only_writes_kill.

(** In every program (any sequence of calls on any objects): after a successful write of [x],
    no later call on [x] succeeds. *)
Theorem C16_linear : forall L S (asarray : L -> res L) (struct : L -> S) seqb os h x, x < length h ->
  forall n m o o', nth_error os n = Some o -> nth_error os m = Some o' -> n < m ->
  subject o = Some x -> writes o = true -> nth_error (snd (run asarray struct seqb h os)) n = Some true ->
  subject o' = Some x -> nth_error (snd (run asarray struct seqb h os)) m = Some true -> False.
Proof. intros L S. exact run_once. Qed.
Print Assumptions C16_linear.

(** Cloning by flatten/unflatten gives a second live object with the same contents. *)
Theorem C16_clone : forall L h s d, (forall s d, deref h s = Some d -> NoDup (keys d)) -> @deref L h s = Some d ->
  exists vs ks h' s', state_flatten h s = Ok (vs, ks) /\ state_unflatten h ks vs = (h', Ok s') /\
    deref h' s' = Some d /\ s' <> s /\ forall x, x < length h -> deref h' x = deref h x.
Proof. intros L. exact clone_spec. Qed.
Print Assumptions C16_clone.

(** Leaves: (shape, number). *)
Notation lf := (nat * nat)%type.
Definition shape (l : lf) : nat := fst l.
Notation set_ := (state_set (@Ok lf) shape Nat.eqb).
Definition arr (n v : nat) : tree lf := Leaf (n, v).
Definition h0 : @heap lf := [Some [(MInt 0, arr 2 10); (MInt 1, arr 3 20)]].
Example C16_ex : set_ h0 0 (Some (MInt 1)) (arr 3 21) =
  ([None; Some [(MInt 0, arr 2 10); (MInt 1, arr 3 21)]], Ok 1).
Proof. reflexivity. Qed.
Example C16_ex_shape : set_ h0 0 (Some (MInt 1)) (arr 4 21) = (h0, Err ValueError).
Proof. reflexivity. Qed.
Example C16_ex_run : snd (run (@Ok lf) shape Nat.eqb h0
    [OGet 0 (Some (MInt 0)); OSet 0 (Some (MInt 0)) (arr 2 1); OGet 0 (Some (MInt 0)); OSet 1 (Some (MInt 0)) (arr 2 1);
     OSet 1 (Some (MInt 0)) (arr 2 1)]) = [true; true; false; true; false].
Proof. reflexivity. Qed.

(** C17. A descendant of a state, by any number of [set]s and [update]s interleaved with any other
    calls, has the same keys, and every key maps to the value last written for it (after
    conversion to arrays), or else to its original value. *)
Theorem C17_last_write : forall L S (asarray : L -> res L) (struct : L -> S) seqb h s w h' s' d,
  lineage asarray struct seqb h s w h' s' -> deref h s = Some d ->
  exists d', deref h' s' = Some d' /\ keys d' = keys d /\
    forall k, dget d' k = match last_write k w with Some v => Some v | None => dget d k end.
Proof. intros L S. exact lineage_spec. Qed.
Print Assumptions C17_last_write.

(** [get] reads that map. *)
Theorem C17_get : forall L h s d i, @deref L h s = Some d ->
  state_get h s (Some i) = match dget d i with Some v => Ok v | None => Err KeyError end.
Proof. intros L h s d i H. unfold state_get. rewrite H. auto. Qed.
Print Assumptions C17_get.

(** Structure (shapes, dtypes, treedef) never changes: if all entries of all live states, and those
    of states created from scratch, have the structure that [G] prescribes for their key, this stays
    so in every program. *)
Theorem C17_structure : forall L S (asarray : L -> res L) (struct : L -> S) seqb,
  (forall a b, seqb a b = true <-> a = b) -> forall G os h,
  typed struct G h -> Forall (op_typed asarray struct G) os ->
  typed struct G (fst (run asarray struct seqb h os)).
Proof. intros L S. exact run_typed. Qed.
Print Assumptions C17_structure.

(** The keys of every live state are distinct, in every program. *)
Theorem C17_keys_distinct : forall L S (asarray : L -> res L) (struct : L -> S) seqb os h,
  (forall s d, deref h s = Some d -> NoDup (keys d)) ->
  forall s d, deref (fst (run asarray struct seqb h os)) s = Some d -> NoDup (keys d).
Proof. intros L S asarray struct seqb os h. exact (run_wf asarray struct seqb os h). Qed.
Print Assumptions C17_keys_distinct.

Definition G0 (m : marker) : tree nat := match m with MInt 0 => Leaf 2 | _ => Leaf 3 end.
Example C17_ex_typed : typed shape G0 h0.
Proof.
  intros [|[|s]] d k v Hd; cbn in Hd; try discriminate.
  - inv Hd. intros [E|[E|[]]]; inv E; reflexivity.
Qed.
Example C17_ex_lineage : exists h' s', lineage (@Ok lf) shape Nat.eqb h0 0
  [(MInt 1, arr 3 5); (MInt 1, arr 3 6)] h' s'.
Proof.
  eexists _, _. eapply (lin_set _ _ _ h0 0 [(MInt 1, arr 3 5)] _ _ (MInt 1) (arr 3 6)); [|reflexivity|].
  - eapply (lin_set _ _ _ h0 0 [] _ _ (MInt 1) (arr 3 5)); [constructor|reflexivity|vm_compute; reflexivity].
  - vm_compute. reflexivity.
Qed.

(** Without the hypothesis on foreign states the structure of an entry can change: unlike [set],
    [update] does not compare structures, and [make_with_state] numbers the indices of every
    model from 0. *)
Theorem C17_foreign_update_refuted : exists h s x h' s' d d',
  deref h s = Some d /\ @state_update lf h s (Some x) = (h', Ok s') /\ deref h' s' = Some d' /\
  option_map (structs shape) (dget d (MInt 0)) <> option_map (structs shape) (dget d' (MInt 0)).
Proof.
  exists [Some [(MInt 0, arr 2 10)]; Some [(MInt 0, arr 7 1)]], 0, 1,
    [None; Some [(MInt 0, arr 7 1)]; Some [(MInt 0, arr 7 1)]], 2, [(MInt 0, arr 2 10)], [(MInt 0, arr 7 1)].
  repeat split; try reflexivity. cbn. congruence.
Qed.
Print Assumptions C17_foreign_update_refuted.

(** C18. [substate] succeeds exactly if all indices of the model are known, and holds exactly their
    entries. *)
Theorem C18_substate : forall L h s m d, @deref L h s = Some d ->
  ((exists h' s', state_substate h s m = (h', Ok s')) /\ (forall k, In k (markers m) -> In k (keys d))) \/
  (state_substate h s m = (h, Err KeyError) /\ exists k, In k (markers m) /\ ~ In k (keys d)).
Proof. intros L. exact substate_total. Qed.
Print Assumptions C18_substate.
Theorem C18_substate_contents : forall L h s m h' s', @state_substate L h s m = (h', Ok s') ->
  exists d d', deref h s = Some d /\ deref h' s' = Some d' /\ s' = length h /\
    (forall x, x < length h -> deref h' x = deref h x) /\
    (forall k, dget d' k = if existsb (marker_eqb k) (markers m) then dget d k else None) /\
    (forall k, In k (keys d') <-> In k (markers m)) /\ NoDup (keys d').
Proof. intros L. exact substate_spec. Qed.
Print Assumptions C18_substate_contents.

(** [update] succeeds exactly if the argument's keys are known; otherwise it raises and changes
    nothing. *)
Theorem C18_update : forall L h s x d items, @deref L h s = Some d -> deref h x = Some items ->
  ((exists h' s', state_update h s (Some x) = (h', Ok s')) /\ (forall k, In k (keys items) -> In k (keys d))) \/
  (state_update h s (Some x) = (h, Err ValueError) /\ exists k, In k (keys items) /\ ~ In k (keys d)).
Proof. intros L. exact update_total. Qed.
Print Assumptions C18_update.
Theorem C18_update_contents : forall L h s x h' s' items,
  (forall s d, deref h s = Some d -> NoDup (keys d)) ->
  @state_update L h s (Some x) = (h', Ok s') -> deref h x = Some items ->
  exists d d', deref h s = Some d /\ deref h' s' = Some d' /\ keys d' = keys d /\
    forall k, dget d' k = match dget items k with Some v => Some v | None => dget d k end.
Proof. intros L. exact update_spec. Qed.
Print Assumptions C18_update_contents.

(** [s.update(s.substate(m))] always succeeds and holds exactly what [s] held, in the same order. *)
Theorem C18_get_put : forall L h s m h1 s1, (forall s d, deref h s = Some d -> NoDup (keys d)) ->
  @state_substate L h s m = (h1, Ok s1) ->
  exists d h2 s2, deref h s = Some d /\ state_update h1 s (Some s1) = (h2, Ok s2) /\ deref h2 s2 = Some d.
Proof.
  intros L. exact (get_put (fun l : L => Ok l) (fun _ : L => tt) (fun _ _ => true)).
Qed.
Print Assumptions C18_get_put.
(** [s.update(t).substate(m)] has the entries of [t], if [m] has the indices of [t]. *)
Theorem C18_put_get : forall L h s x items m h1 s1, (forall s d, deref h s = Some d -> NoDup (keys d)) ->
  @deref L h x = Some items -> (forall k, In k (markers m) <-> In k (keys items)) ->
  state_update h s (Some x) = (h1, Ok s1) ->
  exists h2 s2 d2, state_substate h1 s1 m = (h2, Ok s2) /\ deref h2 s2 = Some d2 /\
    forall k, dget d2 k = dget items k.
Proof. intros L. exact put_get. Qed.
Print Assumptions C18_put_get.

Definition ix (n : nat) : tree (@mleaf lf) := Leaf (Idx (MInt n) None).
Example C18_ex : state_substate h0 0 (Node 1 [ix 1; Leaf (Other (0, 0)); ix 1]) =
  (h0 ++ [Some [(MInt 1, arr 3 20)]], Ok 1).
Proof. reflexivity. Qed.
Example C18_ex_update : state_update (h0 ++ [Some [(MInt 1, arr 3 99)]]) 0 (Some 1) =
  ([None; Some [(MInt 1, arr 3 99)]; Some [(MInt 0, arr 2 10); (MInt 1, arr 3 99)]], Ok 2).
Proof. reflexivity. Qed.
Example C18_ex_foreign : state_update (h0 ++ [Some [(MInt 1, arr 3 9); (MInt 7, arr 3 9)]]) 0 (Some 1) =
  (h0 ++ [Some [(MInt 1, arr 3 9); (MInt 7, arr 3 9)]], Err ValueError).
Proof. reflexivity. Qed.

(** C19. The [k]-th index of the returned model, in flatten order, has marker [k] and no initial
    value; other leaves and the structure are unchanged; the state is new and maps the markers
    [0, 1, ..], in this order, to the initial values as arrays. *)
Theorem C19_make : forall L (asarray : L -> res L) h model h' m' s,
  make_with_state asarray h model = (h', Ok (m', s)) ->
  treedef no_leaf m' = treedef no_leaf model /\
  length (leaves no_leaf m') = length (leaves no_leaf model) /\
  (forall i l, nth_error (leaves no_leaf model) i = Some l ->
    nth_error (leaves no_leaf m') i = Some (match l with
      | Leaf (Idx _ _) => Leaf (Idx (MInt (num_idx (firstn i (leaves no_leaf model)))) None)
      | _ => l end)) /\
  exists vs, Forall2 (fun o v => exists u, o = Some u /\ as_arrays asarray u = Ok v) (inits (leaves no_leaf model)) vs /\
    h' = h ++ [Some (number 0 vs)] /\ s = length h.
Proof. intros L. exact make_spec. Qed.
Print Assumptions C19_make.

(** It succeeds unless an initial value cannot be converted or has already been removed. *)
Theorem C19_make_ok : forall L (asarray : L -> res L) h model,
  (forall o, In o (inits (leaves no_leaf model)) -> exists u v, o = Some u /\ as_arrays asarray u = Ok v) ->
  exists h' m' s, make_with_state asarray h model = (h', Ok (m', s)).
Proof. intros L. exact make_ok. Qed.
Print Assumptions C19_make_ok.
Theorem C19_make_twice : forall L (asarray : L -> res L) h model,
  In None (inits (leaves no_leaf model)) ->
  (forall u, In (Some u) (inits (leaves no_leaf model)) -> exists v, as_arrays asarray u = Ok v) ->
  make_with_state asarray h model = (h, Err ValueError).
Proof. intros L. exact make_used. Qed.
Print Assumptions C19_make_twice.

(** Models that differ only in the identities of their markers give equal models and states. *)
Theorem C19_deterministic : forall L (asarray : L -> res L) h m1 m2, forget m1 = forget m2 ->
  make_with_state asarray h m1 = make_with_state asarray h m2.
Proof. intros L a h m1 m2 H. rewrite (make_forget a h m1), (make_forget a h m2), H. auto. Qed.
Print Assumptions C19_deterministic.

(** The dictionary [number c vs]: keys [c, c+1, ..] in order. *)
Theorem C19_number : forall L (vs : list (tree L)) c i, nth_error (number c vs) i =
  option_map (fun v => (MInt (c + i), v)) (nth_error vs i).
Proof.
  intros L vs. induction vs as [|v vs IH]; intros c [|i]; cbn; auto.
  - rewrite Nat.add_0_r. auto.
  - rewrite IH. replace (c + Datatypes.S i) with (Datatypes.S c + i) by lia. auto.
Qed.
Print Assumptions C19_number.

(** Line 287, [tree_at(lambda y: y.init, x, _sentinel)], on an index with any initial value. *)
Theorem C19_delete_by_tree_at : forall A (aeq : A -> A -> bool), (forall a, aeq a a = true) ->
  forall k init sentinel,
  tree_at aeq (by_value no_leaf) (where_one [0]) (Node k [init]) (Some sentinel) None = Ok (Node k [sentinel]).
Proof.
  intros A aeq Hr k init sentinel.
  destruct (proj2 (one_iff aeq no_leaf Hr (Node k [init]) [0] sentinel)) as [out Ho].
  - split; [econstructor; [reflexivity|reflexivity|constructor]|].
    intros (_ & Hi & _) q (_ & Hs & _). cbn in Hi. inv Hi.
    destruct q as [|[|i] q]; cbn in Hs; [discriminate| |destruct i; discriminate].
    destruct q; [auto|discriminate].
  - rewrite Ho. f_equal. apply (put_get_one aeq no_leaf Hr) in Ho as [H1 H2].
    specialize (H1 [0] sentinel (or_introl eq_refl)).
    assert (HL : label_at out [] = label_at (Node k [init]) []).
    { apply H2. intros p r [E|[]] [x Hx]. inv E. discriminate. }
    destruct out as [a| |k' [|c [|c' cs]]]; cbn in HL, H1; try discriminate.
    inv HL. inv H1. auto.
Qed.
Print Assumptions C19_delete_by_tree_at.

Definition two : tree (@mleaf lf) :=
  Node 1 [Leaf (Idx (MObj 5) (Some (arr 2 10))); Leaf (Other (0, 7)); Leaf (Idx (MObj 3) (Some (arr 3 20)))].
Example C19_ex : make_with_state (@Ok lf) [] two = (h0, Ok (Node 1 [ix 0; Leaf (Other (0, 7)); ix 1], 0)).
Proof. reflexivity. Qed.
(** An index object used in two places of the model is split into two independent ones. *)
Example C19_ex_shared : let i := Leaf (Idx (MObj 5) (Some (arr 2 10))) in
  make_with_state (@Ok lf) [] (Node 1 [i; i]) =
  ([Some [(MInt 0, arr 2 10); (MInt 1, arr 2 10)]], Ok (Node 1 [ix 0; ix 1], 0)).
Proof. reflexivity. Qed.

(** The exceptions of a live state: what is not a [StateIndex], an unknown marker, a value of another
    structure; what is not a [State], or one already consumed, given to [update]. *)
Theorem C16_rejects : forall L S (asarray : L -> res L) (struct : L -> S) seqb h s d, deref h s = Some d ->
  state_get h s None = Err ValueError /\
  (forall v, state_set asarray struct seqb h s None v = (h, Err ValueError)) /\
  (forall m v, ~ In m (keys d) -> state_get h s (Some m) = Err KeyError /\
     state_set asarray struct seqb h s (Some m) v = (h, Err KeyError)) /\
  (forall m old v v', dget d m = Some old -> as_arrays asarray v = Ok v' ->
     tree_eqb seqb (structs struct old) (structs struct v') = false ->
     state_set asarray struct seqb h s (Some m) v = (h, Err ValueError)) /\
  (forall m old v e, dget d m = Some old -> as_arrays asarray v = Err e ->
     state_set asarray struct seqb h s (Some m) v = (h, Err e)) /\
  state_update h s None = (h, Err ValueError) /\
  (forall x, deref h x = None -> state_update h s (Some x) = (h, Err AttributeError)).
Proof.
  intros L S a st q h s d Hd. unfold state_get, state_set, state_update. rewrite Hd.
  split; [reflexivity|]. split; [reflexivity|]. split.
  { intros m v Hn. assert (E : dget d m = None).
    { destruct (dget d m) as [o|] eqn:E; [|reflexivity]. exfalso. apply Hn. clear -E. induction d as [|[k w] d IH]; cbn in *; [discriminate|].
      destruct (marker_eqb k m) eqn:Ek; [apply marker_eqb_spec in Ek; auto|]. right. apply IH. exact E. }
    rewrite E. auto. }
  split. { intros m old v v' E1 E2 E3. rewrite E1, E2, E3. reflexivity. }
  split. { intros m old v e E1 E2. rewrite E1, E2. reflexivity. }
  split; [reflexivity|]. intros x Hx. rewrite Hx. reflexivity.
Qed.
Print Assumptions C16_rejects.
(** Rebuilding a state from its flattened form asks for as many values as there are markers. *)
Theorem C16_unflatten_rejects : forall L h ks (vs : list (tree L)), length ks <> length vs ->
  state_unflatten h ks vs = (h, Err AssertionError).
Proof. intros L h ks vs H. unfold state_unflatten. apply Nat.eqb_neq in H. rewrite H. reflexivity. Qed.
Print Assumptions C16_unflatten_rejects.
