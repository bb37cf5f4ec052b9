(** Property theorems C01-C05. *)
From Verif Require Import Filters_Spec Filters_Proofs Filters_Proofs2 Hashable_Model Hashable_Proofs.

(** * C01 *)
Theorem C01_partition_combine_identity :
  forall (A : Type) (x l r : tree A) (spec : tree (spec_leaf A)),
  eqx_partition no_leaf TNone x spec = Ok (l, r) ->
  eqx_combine no_leaf [l; r] = Ok x.
Proof. intros A x l r spec. exact (roundtrip_no_leaf spec x l r). Qed.
Print Assumptions C01_partition_combine_identity.

Theorem C01_partition_combine_identity_is_leaf :
  forall (A : Type) (isl : tree A -> bool) (x l r : tree A) (spec : tree (spec_leaf A)),
  root_only isl -> spec_above isl spec x ->
  eqx_partition isl TNone x spec = Ok (l, r) ->
  eqx_combine isl [l; r] = Ok x.
Proof. intros A isl x l r spec Hr Ha. exact (roundtrip isl spec Hr x l r Ha). Qed.
Print Assumptions C01_partition_combine_identity_is_leaf.

(** Both hypotheses on [is_leaf] are needed: the unrestricted round trip is false. *)
Theorem C01_is_leaf_unrestricted_refuted :
  exists (isl : tree nat -> bool) x spec l r y,
    eqx_partition isl TNone x spec = Ok (l, r) /\
    eqx_combine isl [l; r] = Ok y /\ y <> x.
Proof.
  exists (fun t => match t with Node 7 [_; TNone] => true | _ => false end).
  exists (Node 7 [Leaf 1; Leaf 2]), (Leaf (SCall (fun t => match t with Leaf 1 => true | _ => false end))).
  exists (Node 7 [Leaf 1; TNone]), (Node 7 [TNone; Leaf 2]), (Node 7 [Leaf 1; TNone]).
  repeat split; discriminate.
Qed.
Print Assumptions C01_is_leaf_unrestricted_refuted.

Theorem C01_spec_inside_leaf_refuted :
  exists (isl : tree nat -> bool) x spec l r y,
    root_only isl /\ eqx_partition isl TNone x spec = Ok (l, r) /\
    eqx_combine isl [l; r] = Ok y /\ y <> x.
Proof.
  exists (fun t => match t with Node 7 _ => true | _ => false end).
  exists (Node 7 [Leaf 1; Leaf 2]), (Node 7 [Leaf (SBool true); Leaf (SBool false)]).
  exists (Node 7 [Leaf 1; TNone]), (Node 7 [TNone; Leaf 2]), (Node 7 [Leaf 1; TNone]).
  split; [|repeat split; discriminate].
  intros [] [] H; simpl in H; try contradiction; subst; reflexivity.
Qed.
Print Assumptions C01_spec_inside_leaf_refuted.

Example C01_nonvacuous :
  let x := Node 1 [Leaf 5; TNone; Node 2 [Leaf 6; Leaf 7]] in
  let spec := Node 1 [Leaf (SBool false); TNone; Leaf (SCall (fun t => match t with Leaf 7 => true | _ => false end))] in
  eqx_partition no_leaf TNone x spec =
    Ok (Node 1 [TNone; TNone; Node 2 [TNone; Leaf 7]], Node 1 [Leaf 5; TNone; Node 2 [Leaf 6; TNone]]).
Proof. reflexivity. Qed.

Example C01_is_leaf_nonvacuous :
  let isl := fun t : tree nat => match t with Node 2 _ => true | _ => false end in
  let x := Node 1 [Leaf 5; Node 2 [Leaf 6; Leaf 7]] in
  let spec := Node 1 [Leaf (SBool false); Leaf (SBool true)] in
  root_only isl /\ spec_above isl spec x /\
  eqx_partition isl TNone x spec = Ok (Node 1 [TNone; Node 2 [Leaf 6; Leaf 7]], Node 1 [Leaf 5; TNone]).
Proof.
  split; [|split].
  - intros [] [] H; simpl in H; try contradiction; subst; reflexivity.
  - constructor; [reflexivity|]. repeat constructor.
  - reflexivity.
Qed.

(** * C02 *)
Theorem C02_partition_positions :
  forall (A : Type) (isl : tree A -> bool) (rep x l r : tree A) spec,
  eqx_partition isl rep x spec = Ok (l, r) ->
  (* every selected object is in exactly one half, [replace] in the other *)
  (forall p s b, selects isl spec x p s b ->
     sub l p = Some (if b then s else rep) /\ sub r p = Some (if b then rep else s)) /\
  (* the structure above is that of [x] *)
  (forall p sh, frame isl spec x p sh -> shape_at l p = Some sh /\ shape_at r p = Some sh) /\
  (* no leaf of [x] escapes *)
  (forall p a, sub x p = Some (Leaf a) ->
     exists q q' s b, p = q ++ q' /\ selects isl spec x q s b /\ sub s q' = Some (Leaf a)).
Proof.
  intros A isl rep x l r spec H. apply partition_fused in H. destruct H as [Hl Hr].
  split; [|split].
  - intros p s b Hs. split.
    + exact (sel_selects _ (fun m s => if m then s else rep) _ _ _ _ _ Hs _ Hl).
    + exact (sel_selects _ (fun m s => if m then rep else s) _ _ _ _ _ Hs _ Hr).
  - intros p sh Hf. split; [exact (sel_frame _ _ _ _ _ _ Hf _ Hl)|exact (sel_frame _ _ _ _ _ _ Hf _ Hr)].
  - intros p a Hp. exact (selects_covers _ _ _ _ _ Hl p a Hp).
Qed.
Print Assumptions C02_partition_positions.

Theorem C02_filter_is_half :
  forall (A : Type) (isl : tree A -> bool) (rep x : tree A) spec,
  match eqx_partition isl rep x spec with
  | Ok (l, r) => eqx_filter isl rep false x spec = Ok l /\ eqx_filter isl rep true x spec = Ok r
  | Err e => eqx_filter isl rep false x spec = Err e /\ eqx_filter isl rep true x spec = Err e
  end.
Proof. intros A isl rep x spec. exact (filter_is_partition isl rep spec x). Qed.
Print Assumptions C02_filter_is_half.

Theorem C02_accepts_exactly_valid_specs :
  forall (A : Type) (isl : tree A -> bool) (rep x : tree A) spec,
  ((exists l r, eqx_partition isl rep x spec = Ok (l, r)) <-> spec_ok spec x) /\
  (~ spec_ok spec x -> eqx_partition isl rep x spec = Err ValueError).
Proof.
  intros A isl rep x spec. split.
  - split.
    + intros (l & r & H). apply partition_fused in H. eapply tmap2_ok_iff; exists l; apply H.
    + intros H. rewrite <- (tmap2_ok_iff isl (fun m s => if m then s else rep)) in H.
      destruct H as [l Hl]. destruct (eqx_partition isl rep x spec) as [[l' r']|e] eqn:E; [eauto|].
      apply partition_err in E; congruence.
  - intros H. destruct (eqx_partition isl rep x spec) as [[l r]|e] eqn:E.
    + exfalso; apply H. apply partition_fused in E. eapply tmap2_ok_iff; exists l; apply E.
    + f_equal. apply partition_err in E. eapply tmap2_sel_err; eauto.
Qed.
Print Assumptions C02_accepts_exactly_valid_specs.

Example C02_nonvacuous :
  let x := Node 1 [Leaf 5; Node 2 [Leaf 6; Leaf 7]] in
  let spec := Node 1 [Leaf (SBool false); Leaf (SCall (fun t => match t with Leaf 7 => true | _ => false end))] in
  selects no_leaf spec x [1; 1] (Leaf 7) true /\ selects no_leaf spec x [1; 0] (Leaf 6) false /\
  frame no_leaf spec x [1] (ShNode 2 2) /\
  eqx_partition no_leaf (Leaf 0) x spec =
    Ok (Node 1 [Leaf 0; Node 2 [Leaf 0; Leaf 7]], Node 1 [Leaf 5; Node 2 [Leaf 6; Leaf 0]]).
Proof.
  split; [|split; [|split; [|reflexivity]]].
  - eapply sel_down; [reflexivity|reflexivity|].
    apply (sel_call no_leaf (fun t => match t with Leaf 7 => true | _ => false end) (Node 2 [Leaf 6; Leaf 7]) [1] (Leaf 7)).
    eapply ol_down; [reflexivity|reflexivity|apply ol_leaf].
  - eapply sel_down; [reflexivity|reflexivity|].
    apply (sel_call no_leaf (fun t => match t with Leaf 7 => true | _ => false end) (Node 2 [Leaf 6; Leaf 7]) [0] (Leaf 6)).
    eapply ol_down; [reflexivity|reflexivity|apply ol_leaf].
  - eapply fr_down; [reflexivity|reflexivity|]. apply fr_leaf. apply (in_node no_leaf 2 [Leaf 6; Leaf 7]). reflexivity.
Qed.

(** * C03 *)
Theorem C03_combine_first_value :
  forall (A : Type) (isl : tree A -> bool) (t0 t : tree A) rest,
  eqx_combine isl (t0 :: rest) = Ok t ->
  (forall p s, obj_leaf (fun x => is_none x || isl x) t0 p s ->
     sub t p = first_value (map (fun u => sub u p) (t0 :: rest))) /\
  (forall p sh, interior (fun x => is_none x || isl x) t0 p sh -> shape_at t p = Some sh).
Proof.
  intros A isl t0 t rest H. split.
  - intros p s. exact (eqx_combine_first isl t0 rest t p s H).
  - intros p sh. exact (eqx_combine_interior isl t0 rest t p sh H).
Qed.
Print Assumptions C03_combine_first_value.

Theorem C03_combine_raises_iff_mismatch :
  forall (A : Type) (isl : tree A -> bool) (t0 : tree A) rest,
  (eqx_combine isl (t0 :: rest) = Err ValueError <->
   exists u p sh, In u rest /\ interior (fun x => is_none x || isl x) t0 p sh /\ shape_at u p <> Some sh) /\
  (forall e, eqx_combine isl (t0 :: rest) = Err e -> e = ValueError).
Proof.
  intros A isl t0 rest. split; [exact (eqx_combine_err_iff isl t0 rest)|exact (eqx_combine_err_value isl t0 rest)].
Qed.
Print Assumptions C03_combine_raises_iff_mismatch.

Theorem C03_combine_regroup :
  forall (A : Type) (d : tree unit) (xs ys : list (tree A)),
  xs <> [] -> ys <> [] -> Forall (fits d) xs -> Forall (fits d) ys ->
  exists x y t, eqx_combine no_leaf xs = Ok x /\ eqx_combine no_leaf ys = Ok y /\
    eqx_combine no_leaf [x; y] = Ok t /\ eqx_combine no_leaf (xs ++ ys) = Ok t.
Proof. exact @combine_regroup. Qed.
Print Assumptions C03_combine_regroup.

Theorem C03_combine_no_trees : forall A (isl : tree A -> bool), eqx_combine isl [] = Err TypeError.
Proof. reflexivity. Qed.
Print Assumptions C03_combine_no_trees.

Example C03_nonvacuous :
  let d := Node 1 [Leaf tt; Node 2 [Leaf tt]; TNone] in
  let a := Node 1 [TNone; Node 2 [Leaf 3]; TNone] in
  let b := Node 1 [TNone; Node 2 [Leaf 4]; TNone] in
  let c := Node 1 [Leaf 1; Node 2 [TNone]; TNone] in
  Forall (fits d) [a; b; c] /\
  eqx_combine no_leaf [a; b; c] = Ok (Node 1 [Leaf 1; Node 2 [Leaf 3]; TNone]) /\
  eqx_combine no_leaf [a; Node 1 [Leaf 1; TNone; TNone]] = Err ValueError.
Proof. split; [repeat constructor|split; reflexivity]. Qed.

(** * C04 *)
Theorem C04_apply_updates_positions :
  forall (A : Type) (add : tree A -> tree A -> res (tree A)) (m u m' : tree A),
  apply_updates add m u = Ok m' ->
  (forall p s, obj_leaf is_none u p s ->
     exists x, sub m p = Some x /\
       match s with
       | TNone => sub m' p = Some x
       | _ => exists y, add x s = Ok y /\ sub m' p = Some y
       end) /\
  (forall p sh, interior is_none u p sh -> shape_at m' p = Some sh /\ shape_at m p = Some sh).
Proof.
  intros A add m u m' H. split.
  - intros p s Hp. exact (apply_updates_leaf add u p s Hp m m' H).
  - intros p sh Hp. exact (apply_updates_frame add u p sh Hp m m' H).
Qed.
Print Assumptions C04_apply_updates_positions.

Theorem C04_no_updates_is_identity :
  forall (A : Type) (add : tree A -> tree A -> res (tree A)) (m u m' : tree A),
  leaves no_leaf u = [] -> apply_updates add m u = Ok m' -> m' = m.
Proof. intros A add m u m'. exact (apply_updates_none add u m m'). Qed.
Print Assumptions C04_no_updates_is_identity.

Theorem C04_sequential_updates_add_up :
  forall (A : Type) (plus : A -> A -> A),
  (forall a b c, plus (plus a b) c = plus a (plus b c)) ->
  forall m u1 u2 u12 : tree A,
  let d := treedef no_leaf m in
  fits d u1 -> fits d u2 -> fits d u12 ->
  (forall p, slot d p -> sub u12 p = upd_sum plus (sub u1 p) (sub u2 p)) ->
  exists m', apply_updates (leaf_add plus) m u12 = Ok m' /\
    (m1 <- apply_updates (leaf_add plus) m u1 ;; apply_updates (leaf_add plus) m1 u2) = Ok m'.
Proof. exact @apply_seq. Qed.
Print Assumptions C04_sequential_updates_add_up.

Example C04_nonvacuous :
  let m := Node 1 [Leaf 1; Node 2 [Leaf 2; Leaf 3]; TNone] in
  apply_updates (leaf_add Nat.add) m (Node 1 [Leaf 10; TNone; TNone])
    = Ok (Node 1 [Leaf 11; Node 2 [Leaf 2; Leaf 3]; TNone]) /\
  apply_updates (leaf_add Nat.add) m (Node 1 [TNone; Node 2 [TNone; Leaf 4]; TNone])
    = Ok (Node 1 [Leaf 1; Node 2 [Leaf 2; Leaf 7]; TNone]) /\
  fits (treedef no_leaf m) (Node 1 [TNone; Node 2 [TNone; Leaf 4]; TNone]) /\
  leaves no_leaf (Node 1 [TNone; TNone; TNone] : tree nat) = [].
Proof. split; [reflexivity|]. split; [reflexivity|]. split; [repeat constructor|reflexivity]. Qed.

(** * C05 *)
Theorem C05_pack_unpack_identity :
  forall (A : Type) (t : tree A) (f : tree A -> bool),
  hashable_combine (fst (hashable_partition t f)) (snd (hashable_partition t f)) = Ok t.
Proof. exact @hashable_roundtrip. Qed.
Print Assumptions C05_pack_unpack_identity.

Theorem C05_pack_positions :
  forall (A : Type) (t : tree A) (f : tree A -> bool),
  length (fst (hashable_partition t f)) = length (leaves no_leaf t) /\
  length (fst (snd (hashable_partition t f))) = length (leaves no_leaf t) /\
  (forall i x, nth_error (leaves no_leaf t) i = Some x ->
    nth_error (fst (hashable_partition t f)) i = Some (if f x then x else TNone) /\
    nth_error (fst (snd (hashable_partition t f))) i = Some (if f x then TNone else x)).
Proof.
  intros A t f. split; [apply hashable_lengths|]. split; [apply hashable_lengths|].
  exact (hashable_positions t f).
Qed.
Print Assumptions C05_pack_positions.
(** The packing without a second half. *)
Theorem C05_filter_positions :
  forall (A : Type) (t : tree A) (f : tree A -> bool),
  length (hashable_filter t f) = length (leaves no_leaf t) /\
  (forall i x, nth_error (leaves no_leaf t) i = Some x -> nth_error (hashable_filter t f) i = Some (if f x then x else TNone)).
Proof.
  intros A t f. unfold hashable_filter. split; [apply map_length|]. intros i x H. rewrite nth_error_map, H. reflexivity.
Qed.
Print Assumptions C05_filter_positions.

Theorem C05_retraced_leaves_land_in_place :
  forall (A : Type) (t : tree A) (f : tree A -> bool) (dyn : list (tree A)),
  length dyn = length (leaves no_leaf t) ->
  (forall i x, nth_error (leaves no_leaf t) i = Some x -> f x = true ->
     exists a, nth_error dyn i = Some (Leaf a)) ->
  exists t', hashable_combine dyn (snd (hashable_partition t f)) = Ok t' /\
    treedef no_leaf t' = treedef no_leaf t /\
    forall i x, nth_error (leaves no_leaf t) i = Some x ->
      nth_error (leaves no_leaf t') i = if f x then nth_error dyn i else Some x.
Proof. exact @hashable_retrace. Qed.
Print Assumptions C05_retraced_leaves_land_in_place.

Example C05_nonvacuous :
  let t := Node 1 [Leaf 5; TNone; Node 2 [Leaf 6; Leaf 7]] in
  let f := fun t => match t with Leaf 6 => false | _ => true end in
  fst (hashable_partition t f) = [Leaf 5; TNone; Leaf 7] /\
  hashable_combine [Leaf 50; TNone; Leaf 70] (snd (hashable_partition t f))
    = Ok (Node 1 [Leaf 50; TNone; Node 2 [Leaf 6; Leaf 70]]).
Proof. split; reflexivity. Qed.
