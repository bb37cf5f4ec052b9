(** C118: stateful layers under [filter_vmap]. *)
From Verif Require Import State_Model State_Spec State_Proofs Vmap_Spec Vmap_Proofs Vmap_Proofs2 Vmap_Props Act_Props VmapState_Model.
From Verif Require Ensemble_Props.
Local Open Scope nat_scope.
Local Open Scope list_scope.

Section VmapState.
  Variable V : Type.
  Variable asize : V -> Z -> res nat.
  Variable atake : V -> Z -> nat -> V.
  Variable astack : list V -> V.
  Variable amove : V -> Z -> res V.
  Variable of_num : Z -> V.
  Variable uniform : list V -> Prop.
  Hypothesis laws : array_laws V asize atake astack amove uniform.
  Hypothesis sizes : size_law V asize astack amove uniform.
  Variable sentinel_kind : nat.
  Variable index_kind : marker -> nat.
  Variable marker_of : nat -> option marker.
  Variable state_kind : list marker -> nat.
  Variable keys_of : nat -> option (list marker).
  (** The encoding of keys can be read back. *)
  Hypothesis keys_state : forall ks, NoDup ks -> keys_of (state_kind ks) = Some ks.
  Hypothesis state_keys : forall k ks, keys_of k = Some ks -> k = state_kind ks /\ NoDup ks.
  Variables call make : tree (gleaf (bat V)) -> res (tree (gleaf (bat V))).
  Variables callc makec : tree (gleaf V) -> res (tree (gleaf V)).
  Hypothesis Hcall : traces V uniform call callc.
  Hypothesis Hmake : traces V uniform make makec.
  Local Notation T := (tree (gleaf V)).
  Local Notation B := (tree (gleaf (bat V))).
  Local Notation heap := (@heap (gleaf V)).
  Local Notation mleaf := (@State_Model.mleaf (gleaf V)).
  Local Notation model_tree := (model_tree V sentinel_kind index_kind).
  Local Notation vmapped_call := (vmapped_call V asize atake astack amove of_num sentinel_kind index_kind state_kind keys_of call).
  Local Notation vmapped_run := (vmapped_run V asize atake astack amove of_num sentinel_kind index_kind state_kind keys_of call).
  (** Member [i] of a stacked PyTree: element [i] of every array, anything else as it is. *)
  Local Notation member i := (on_arrays (fun a => atake a 0%Z i)).
  (** Lane [i] of the contents of a [State]. *)
  Definition lane (i : nat) (d : dict T) : dict T := map (fun kv => (fst kv, member i (snd kv))) d.
  (** A [State] as an argument. *)
  Definition state_tree (d : dict T) : T := Node (state_kind (keys d)) (map snd d).
  (** The entries of a state that belong to a layer. *)
  Definition owns (layer : tree mleaf) (d own : dict T) : Prop :=
    NoDup (keys own) /\ forall k, dget own k = if existsb (marker_eqb k) (markers layer) then dget d k else None.

  Lemma lane_keys i d : keys (lane i d) = keys d.
  Proof using. unfold keys, lane. rewrite map_map. reflexivity. Qed.
  Lemma state_member i d : member i (state_tree d) = state_tree (lane i d).
  Proof using. unfold state_tree. rewrite lane_keys, on_arrays_node. unfold lane. rewrite !map_map. reflexivity. Qed.

  Lemma closed_traces (layer : T) :
    traces V uniform (closed V call layer) (fun args => match args with Node _ [x; st] => callc (Node tuple_kind [layer; x; st]) | _ => Err TypeError end).
  Proof using Hcall.
    intros n t o HB H. destruct t as [l| |k [|x [|st [|? ?]]]]; try discriminate. cbn [closed] in H. inversion HB as [| |? ? HF]; subst.
    assert (HB' : batched V uniform n (Node tuple_kind [up (emb V) layer; x; st])) by (constructor; constructor; [apply emb_batched|exact HF]).
    destruct (Hcall n _ _ HB' H) as [H1 H2]. split; [exact H1|]. intros i t' Hi HE. inversion HE as [| |? ? ys HF2]; subst.
    inversion HF2 as [|? a ? ? E1 HF3]; subst. inversion HF3 as [|? b ? ? E2 HF4]; subst. inversion HF4; subst.
    apply (H2 i _ Hi). constructor. constructor; [apply emb_elem|]. exact HF2.
  Qed.

  (** One call of [filter_vmap], on any tree. *)
  Lemma vmap_lanes mapped layer a st r n : vmapped V asize atake astack amove of_num call mapped layer (Leaf (Arr a)) st = Ok r -> asize a 0%Z = Ok n ->
    forall i, i < n -> callc (Node tuple_kind [if mapped then member i layer else layer; Leaf (Arr (atake a 0%Z i)); member i st]) = Ok (member i r).
  Proof using laws Hcall.
    intros H Ha i Hi. destruct mapped; cbn [vmapped] in H.
    - unfold vmap_mapped in H.
      destruct (filter_vmap_full V asize atake astack amove of_num uniform laws call callc Hcall _ _ _ _ _ _ _ H) as (spec & iax & out & oax & H1 & H2 & H3 & H4).
      cbn [named_in_axes] in H1. injection H1 as <-. apply resolves_if_axes in H2. apply resolves_if_axes in H3. subst iax oax.
      destruct H4 as [(E & _)|(m & HS & _ & _ & _ & _ & HP)].
      { exfalso. cbn [if_axes map leaves no_leaf concat app] in E. apply app_eq_nil in E as [_ E]. discriminate. }
      apply sizes_if in HS. assert (m = n) by (pose proof (HS [1] a eq_refl); congruence). subst m.
      destruct (HP i Hi) as (t & o & P1 & P2 & P3 & P4). apply slice_if in P1. apply slice_out in P4; [|exact P3]. subst t o. exact P2.
    - unfold vmap_closed in H.
      destruct (filter_vmap_full V asize atake astack amove of_num uniform laws _ _ (closed_traces layer) _ _ _ _ _ _ _ H) as (spec & iax & out & oax & H1 & H2 & H3 & H4).
      cbn [named_in_axes] in H1. injection H1 as <-. apply resolves_if_axes in H2. apply resolves_if_axes in H3. subst iax oax.
      destruct H4 as [(E & _)|(m & HS & _ & _ & _ & _ & HP)].
      { exfalso. cbn [if_axes map leaves no_leaf concat app] in E. discriminate. }
      apply sizes_if in HS. assert (m = n) by (pose proof (HS [0] a eq_refl); congruence). subst m.
      destruct (HP i Hi) as (t & o & P1 & P2 & P3 & P4). apply slice_if in P1. apply slice_out in P4; [|exact P3]. subst t o. exact P2.
  Qed.

  Definition wf (h : heap) := forall s d, deref h s = Some d -> NoDup (keys d).

  Lemma keys_combine (ks : list marker) (vs : list T) : length ks = length vs -> keys (List.combine ks vs) = ks /\ map snd (List.combine ks vs) = vs.
  Proof using.
    revert vs. induction ks as [|k ks IH]; intros [|v vs] H; try discriminate; [auto|]. destruct (IH vs (eq_add_S _ _ H)) as [E1 E2].
    unfold keys in *. cbn [List.combine map fst snd]. rewrite E1, E2. auto.
  Qed.

  Lemma call_full mapped h s layer a y h' s' n : wf h -> vmapped_call mapped h s layer (Leaf (Arr a)) = (h', Ok (y, s')) -> asize a 0%Z = Ok n ->
    exists d own own' d' k, deref h s = Some d /\ deref h' s = None /\ deref h' s' = Some d' /\ wf h' /\ keys d' = keys d /\
      restrict d (markers layer) [] = Ok own /\ owns layer d own /\ NoDup (keys own') /\
      (forall m, dget d' m = match dget own' m with Some v => Some v | None => dget d m end) /\
      (forall i, i < n -> callc (Node tuple_kind [if mapped then member i (model_tree layer) else model_tree layer; Leaf (Arr (atake a 0%Z i)); state_tree (lane i own)])
        = Ok (Node k [member i y; state_tree (lane i own')])).
  Proof using laws Hcall state_keys.
    intros HW H Ha. unfold VmapState_Model.vmapped_call, with_substate in H.
    destruct (state_substate h s layer) as [h1 [s1|e]] eqn:E1; [|discriminate].
    apply substate_ok in E1 as (d & own & Hd & Hr & -> & ->). set (h1 := h ++ [Some own]) in *.
    assert (Hown : owns layer d own).
    { apply restrict_ok in Hr as (R1 & R2 & R3). split; [apply R3; constructor|]. intros k. rewrite R1. cbn [dget]. reflexivity. }
    assert (D1 : deref h1 (length h) = Some own) by apply deref_new.
    unfold state_flatten in H. rewrite D1 in H. cbn [bind] in H. fold (state_tree own) in H.
    destruct (vmapped _ _ _ _ _ _ _ _ _ _ _) as [r|e] eqn:Er; [|discriminate].
    destruct r as [l| |k [|y0 [|[l| |k' vs] [|? ?]]]]; try discriminate.
    destruct (keys_of k') as [ks|] eqn:Ek; [|discriminate]. apply state_keys in Ek as [-> Hks].
    unfold state_unflatten in H. destruct (Nat.eqb_spec (length ks) (length vs)) as [El|]; [|discriminate]. cbn [alloc] in H.
    destruct (keys_combine ks vs El) as [K1 K2]. rewrite from_pairs_id in H by (rewrite K1; exact Hks).
    set (own' := List.combine ks vs) in *. set (h2 := h1 ++ [Some own']) in *.
    assert (W2 : wf h2).
    { unfold h2, h1, wf. intros x dx Hx. unfold deref in Hx. destruct (nth_error ((h ++ [Some own]) ++ [Some own']) x) as [o|] eqn:En; [|discriminate]. apply nth_error_In in En. rewrite !in_app_iff in En. destruct o as [dd|]; [|discriminate]. injection Hx as ->.
      destruct En as [[En|[En|[]]]|[En|[]]].
      - apply In_nth_error in En as (x' & En). apply (HW x'). unfold deref. rewrite En. reflexivity.
      - injection En as <-. apply Hown.
      - injection En as <-. rewrite K1. exact Hks. }
    match type of H with context [state_update ?hh _ _] => change hh with h2 in H end.
    destruct (state_update h2 s (Some (length h1))) as [h3 [s3|e]] eqn:Eu; [|discriminate]. injection H as <- <- <-.
    pose proof Eu as Eu2. eapply update_spec in Eu as (d0 & d' & U1 & U2 & U3 & U4); [|exact W2|apply deref_new].
    apply update_ok in Eu2 as (d1 & s2 & it & d2 & V1 & V2 & V3 & V4 & V5). destruct V5 as (Q1 & Q2 & Q3 & Q4 & Q5 & Q6).
    assert (d0 = d).
    { unfold h2, h1 in U1. apply deref_lt in Hd as Hl. rewrite (deref_app (h ++ [Some own])) in U1 by (rewrite app_length; clear - Hl; cbn; lia). rewrite deref_app in U1 by exact Hl. congruence. }
    subst d0. exists d, own, own', d', k. split; [exact Hd|]. split; [exact Q4|]. split; [exact U2|]. split.
    { intros x dx Hx. destruct (Nat.eq_dec x s3) as [->|Hn]; [rewrite U2 in Hx; injection Hx as <-; rewrite U3; apply (HW s); exact Hd|].
      destruct (Nat.eq_dec x s) as [->|Hn2]; [congruence|]. assert (x < length h3) by (apply deref_lt in Hx; exact Hx). apply (W2 x). rewrite <- Q6; [exact Hx| |exact Hn2]. clear - H Q1 Q2 Hn. lia. }
    split; [exact U3|]. split; [exact Hr|]. split; [exact Hown|]. split; [rewrite K1; exact Hks|]. split; [exact U4|].
    intros i Hi. pose proof (vmap_lanes _ _ _ _ _ _ Er Ha i Hi) as G. rewrite state_member in G. rewrite G. f_equal.
    rewrite !on_arrays_node. cbn [map]. f_equal. f_equal. f_equal. unfold state_tree. rewrite lane_keys, K1. rewrite on_arrays_node. f_equal. unfold lane. rewrite map_map. cbn [snd].
    rewrite <- K2 at 1. rewrite map_map. reflexivity.
  Qed.

  (** One call, the layer being mapped too: in lane [i], member [i] of the layer is called on element [i] of the input with lane [i] of
      its states; outputs and new states are stacked. *)
  Theorem C118_call : forall h s layer a y h' s' n, wf h -> vmapped_call true h s layer (Leaf (Arr a)) = (h', Ok (y, s')) -> asize a 0%Z = Ok n ->
    exists d own own' d' k, deref h s = Some d /\ deref h' s = None /\ deref h' s' = Some d' /\ keys d' = keys d /\
      owns layer d own /\ NoDup (keys own') /\
      (forall m, dget d' m = match dget own' m with Some v => Some v | None => dget d m end) /\
      (forall i, i < n -> callc (Node tuple_kind [member i (model_tree layer); Leaf (Arr (atake a 0%Z i)); state_tree (lane i own)])
        = Ok (Node k [member i y; state_tree (lane i own')])).
  Proof using laws Hcall state_keys.
    intros h s layer a y h' s' n HW H Ha. destruct (call_full _ _ _ _ _ _ _ _ _ HW H Ha) as (d & own & own' & d' & k & H1 & H2 & H3 & H4 & H5 & H6 & H7 & H8 & H9 & H10).
    exists d, own, own', d', k. auto 12.
  Qed.

  (** As in the documentation, the layer being closed over: every lane calls the whole layer. *)
  Theorem C118_closed : forall h s layer a y h' s' n, wf h -> vmapped_call false h s layer (Leaf (Arr a)) = (h', Ok (y, s')) -> asize a 0%Z = Ok n ->
    exists d own own' d' k, deref h s = Some d /\ deref h' s = None /\ deref h' s' = Some d' /\ keys d' = keys d /\
      owns layer d own /\ NoDup (keys own') /\
      (forall m, dget d' m = match dget own' m with Some v => Some v | None => dget d m end) /\
      (forall i, i < n -> callc (Node tuple_kind [model_tree layer; Leaf (Arr (atake a 0%Z i)); state_tree (lane i own)])
        = Ok (Node k [member i y; state_tree (lane i own')])).
  Proof using laws Hcall state_keys.
    intros h s layer a y h' s' n HW H Ha. destruct (call_full _ _ _ _ _ _ _ _ _ HW H Ha) as (d & own & own' & d' & k & H1 & H2 & H3 & H4 & H5 & H6 & H7 & H8 & H9 & H10).
    exists d, own, own', d', k. auto 12.
  Qed.

  Definition no_arrays (t : T) : Prop := forall p a, sub t p <> Some (Leaf (Arr a)).
  Lemma no_arrays_member t : no_arrays t -> forall i, member i t = t.
  Proof using.
    intros H i. induction t as [[a|z|o]| |k cs IH] using tree_ind'; try reflexivity; [destruct (H [] a eq_refl)|].
    rewrite on_arrays_node. f_equal. rewrite <- (map_id cs) at 2. rewrite Forall_forall in IH. apply map_ext_in. intros c Hc. apply (IH c Hc).
    intros p a Hp. apply In_nth_error in Hc as (j & Hj). apply (H (j :: p) a). cbn [sub]. rewrite Hj. exact Hp.
  Qed.

  Lemma restrict_keys (d1 d2 : dict T) ms : forall a1 a2 r1 r2, restrict d1 ms a1 = Ok r1 -> restrict d2 ms a2 = Ok r2 -> keys a1 = keys a2 -> keys r1 = keys r2.
  Proof using.
    induction ms as [|m ms IH]; intros a1 a2 r1 r2 H1 H2 HK; cbn in H1, H2; [congruence|].
    destruct (dget d1 m) as [v1|]; [|discriminate]. destruct (dget d2 m) as [v2|]; [|discriminate]. apply (IH _ _ _ _ H1 H2).
    destruct (dget a1 m) eqn:E1.
    - assert (E2 : dget a2 m <> None) by (apply dget_In; rewrite <- HK; apply dget_In; congruence).
      rewrite !keys_dset by congruence. exact HK.
    - assert (E2 : dget a2 m = None) by (destruct (dget a2 m) eqn:E; [|reflexivity]; assert (X : dget a1 m <> None) by (apply dget_In; rewrite HK; apply dget_In; congruence); congruence).
      rewrite !keys_dset_new by assumption. rewrite HK. reflexivity.
  Qed.
  Lemma in_markers (layer : tree mleaf) k : existsb (marker_eqb k) (markers layer) = true <-> In k (markers layer).
  Proof using.
    rewrite existsb_exists. split; [intros (x & Hx & E); apply marker_eqb_spec in E; subst; exact Hx|]. intros H. exists k. split; [exact H|apply marker_eqb_refl].
  Qed.

  (** The calls of one member alone, with its own state. *)
  Inductive alone (layer : T) : dict T -> list T -> list T -> dict T -> Prop :=
  | alone_nil d : alone layer d [] [] d
  | alone_cons d x k y d1 xs ys d2 : callc (Node tuple_kind [layer; x; state_tree d]) = Ok (Node k [y; state_tree d1]) ->
      alone layer d1 xs ys d2 -> alone layer d (x :: xs) (y :: ys) d2.
  (** A layer returns a state with the entries of the one it got, as [State.set] does (C16, C18). *)
  Definition keeps_keys : Prop := forall layer x d k y t, callc (Node tuple_kind [layer; x; state_tree d]) = Ok (Node k [y; t]) ->
    exists d', t = state_tree d' /\ keys d' = keys d.

  Lemma run_full mapped : keeps_keys -> forall n layer, 0 < n -> forall xs h s ys h' s' d, wf h -> deref h s = Some d ->
    (forall k, In k (markers layer) -> In k (keys d)) -> Forall (fun a => asize a 0%Z = Ok n) xs ->
    vmapped_run mapped h s layer (map (fun a => Leaf (Arr a)) xs) = (h', Ok (ys, s')) ->
    exists own own' d', restrict d (markers layer) [] = Ok own /\ restrict d' (markers layer) [] = Ok own' /\ deref h' s' = Some d' /\ wf h' /\ keys d' = keys d /\
      (forall k, ~ In k (markers layer) -> dget d' k = dget d k) /\
      (forall i, i < n -> alone (if mapped then member i (model_tree layer) else model_tree layer) (lane i own)
         (map (fun a => Leaf (Arr (atake a 0%Z i))) xs) (map (member i) ys) (lane i own')).
  Proof using laws Hcall state_keys keys_state.
    intros KK n layer Hn. induction xs as [|a xs IH]; intros h s ys h' s' d HW Hd HM HF H; cbn [map VmapState_Model.vmapped_run] in H.
    - injection H as <- <- <-. assert (exists own, restrict d (markers layer) [] = Ok own) as (own & Ho).
      { destruct (restrict d (markers layer) []) as [own|e] eqn:E; [eauto|]. apply restrict_err in E as (_ & m & M1 & M2). destruct (M2 (HM m M1)). }
      exists own, own, d. do 6 (split; [auto|]). intros i Hi. cbn [map]. constructor.
    - destruct (vmapped_call mapped h s layer (Leaf (Arr a))) as [h1 [[y s1]|e]] eqn:E1; [|discriminate].
      destruct (vmapped_run mapped h1 s1 layer (map (fun a => Leaf (Arr a)) xs)) as [h2 [[ys' s2]|e]] eqn:E2; [|discriminate]. injection H as <- <- <-.
      inversion HF as [|? ? Ha HF']; subst.
      destruct (call_full _ _ _ _ _ _ _ _ _ HW E1 Ha) as (d0 & own & own1 & d1 & k & A1 & A2 & A3 & A4 & A5 & A6 & A7 & A8 & A9 & A10).
      assert (d0 = d) by congruence. subst d0.
      assert (HM1 : forall k, In k (markers layer) -> In k (keys d1)) by (intros m Hm; rewrite A5; auto).
      destruct (IH _ _ _ _ _ _ A4 A3 HM1 HF' E2) as (own2 & own' & d' & B1 & B2 & B3 & B4 & B5 & B6 & B7).
      assert (K : keys own1 = keys own).
      { destruct (KK _ _ _ _ _ _ (A10 0 Hn)) as (d'' & F1 & F2). unfold state_tree in F1. injection F1 as F1 _. rewrite lane_keys in F1, F2. rewrite F2 in F1.
        assert (G : keys_of (state_kind (keys own1)) = keys_of (state_kind (keys own))) by congruence. rewrite !keys_state in G by (assumption || apply A7). congruence. }
      assert (GO : forall m, In m (markers layer) <-> In m (keys own)).
      { intros m. destruct A7 as [_ A7]. rewrite <- dget_In, A7. destruct (existsb (marker_eqb m) (markers layer)) eqn:E.
        - apply in_markers in E. split; [intros _; apply dget_In; auto|auto].
        - split; [intros X; apply in_markers in X; congruence|congruence]. }
      assert (own2 = own1).
      { assert (R : NoDup (keys own2) /\ forall m, dget own2 m = if existsb (marker_eqb m) (markers layer) then dget d1 m else None).
        { apply restrict_ok in B1 as (R1 & _ & R3). split; [apply R3; constructor|]. exact R1. }
        apply dict_ext; [apply R| |].
        - rewrite K. apply (restrict_keys _ _ _ _ _ _ _ B1 A6 eq_refl).
        - intros m. rewrite (proj2 R), A9. destruct (existsb (marker_eqb m) (markers layer)) eqn:E.
          + apply in_markers, GO in E. rewrite <- K in E. apply dget_In in E. destruct (dget own1 m); [reflexivity|congruence].
          + destruct (dget own1 m) eqn:E3; [|reflexivity]. assert (X : In m (keys own1)) by (apply dget_In; congruence). rewrite K in X. apply GO, in_markers in X. congruence. }
      subst own2. exists own, own', d'. split; [exact A6|]. split; [exact B2|]. split; [exact B3|]. split; [exact B4|]. split; [congruence|]. split.
      + intros m Hm. rewrite B6 by exact Hm. rewrite A9. destruct (dget own1 m) eqn:E3; [|reflexivity]. exfalso. apply Hm, GO. rewrite <- K. apply dget_In. congruence.
      + intros i Hi. cbn [map]. econstructor; [apply A10; exact Hi|]. apply B7. exact Hi.
  Qed.
  Lemma restrict_owns (layer : tree mleaf) d own : restrict d (markers layer) [] = Ok own -> owns layer d own.
  Proof using. intros H. apply restrict_ok in H as (R1 & _ & R3). split; [apply R3; constructor|]. exact R1. Qed.

  (** Any number of calls: lane [i] is a run of member [i] alone; other entries stay as they are. *)
  Theorem C118_run : keeps_keys -> forall n layer xs h s ys h' s' d, 0 < n -> wf h -> deref h s = Some d ->
    (forall k, In k (markers layer) -> In k (keys d)) -> Forall (fun a => asize a 0%Z = Ok n) xs ->
    vmapped_run true h s layer (map (fun a => Leaf (Arr a)) xs) = (h', Ok (ys, s')) ->
    exists own own' d', owns layer d own /\ owns layer d' own' /\ deref h' s' = Some d' /\ keys d' = keys d /\
      (forall k, ~ In k (markers layer) -> dget d' k = dget d k) /\
      (forall i, i < n -> alone (member i (model_tree layer)) (lane i own) (map (fun a => Leaf (Arr (atake a 0%Z i))) xs) (map (member i) ys) (lane i own')).
  Proof using laws Hcall state_keys keys_state.
    intros KK n layer xs h s ys h' s' d Hn HW Hd HM HF H. destruct (run_full true KK n layer Hn _ _ _ _ _ _ _ HW Hd HM HF H) as (own & own' & d' & H1 & H2 & H3 & H4 & H5 & H6 & H7).
    exists own, own', d'. split; [apply restrict_owns; exact H1|]. split; [apply restrict_owns; exact H2|]. auto.
  Qed.
  (** ... and as documented, if the layer itself has no arrays. *)
  Theorem C118_run_closed : keeps_keys -> forall n layer xs h s ys h' s' d, no_arrays (model_tree layer) -> 0 < n -> wf h -> deref h s = Some d ->
    (forall k, In k (markers layer) -> In k (keys d)) -> Forall (fun a => asize a 0%Z = Ok n) xs ->
    vmapped_run false h s layer (map (fun a => Leaf (Arr a)) xs) = (h', Ok (ys, s')) ->
    exists own own' d', owns layer d own /\ owns layer d' own' /\ deref h' s' = Some d' /\ keys d' = keys d /\
      (forall k, ~ In k (markers layer) -> dget d' k = dget d k) /\
      (forall i, i < n -> alone (member i (model_tree layer)) (lane i own) (map (fun a => Leaf (Arr (atake a 0%Z i))) xs) (map (member i) ys) (lane i own')).
  Proof using laws Hcall state_keys keys_state.
    intros KK n layer xs h s ys h' s' d HA Hn HW Hd HM HF H. destruct (run_full false KK n layer Hn _ _ _ _ _ _ _ HW Hd HM HF H) as (own & own' & d' & H1 & H2 & H3 & H4 & H5 & H6 & H7).
    exists own, own', d'. split; [apply restrict_owns; exact H1|]. split; [apply restrict_owns; exact H2|]. do 3 (split; [auto|]). intros i Hi. rewrite no_arrays_member by exact HA. apply H7. exact Hi.
  Qed.

  (** *** Making the layer *)
  Local Notation of_tree := (of_tree V marker_of).
  Local Notation as_array := (as_array V of_num).
  Definition gm (i : nat) (l : mleaf) : mleaf := match l with
    | Idx m init => Idx m (option_map (member i) init)
    | Other (Arr a) => Other (Arr (atake a 0%Z i))
    | Other l => Other l
    end.
  Definition lift (i : nat) (l : tree mleaf) : tree mleaf := match l with Leaf a => Leaf (gm i a) | _ => TNone end.
  Definition Fm (i : nat) : tree mleaf -> tree mleaf := tmap no_leaf (lift i).
  Lemma Fm_node i k cs : Fm i (Node k cs) = Node k (map (Fm i) cs).
  Proof using. reflexivity. Qed.
  Lemma of_tree_member i v : of_tree (member i v) = Fm i (of_tree v).
  Proof using.
    induction v as [[a|z|o]| |k cs IH] using tree_ind'; try reflexivity. rewrite on_arrays_node. cbn [VmapState_Model.of_tree].
    assert (E : Node k (map of_tree (map (member i) cs)) = Fm i (Node k (map of_tree cs))).
    { rewrite Fm_node, !map_map. f_equal. apply map_ext_Forall. exact IH. }
    destruct (marker_of k) as [m|]; [|exact E]. destruct cs as [|c [|c2 cs]]; [exact E|reflexivity|exact E].
  Qed.
  Lemma Fm_leaves i t : treedef no_leaf (Fm i t) = treedef no_leaf t /\ leaves no_leaf (Fm i t) = map (lift i) (leaves no_leaf t).
  Proof using.
    induction t as [l| |k cs IH] using tree_ind'; auto. rewrite Fm_node. cbn [treedef leaves no_leaf]. rewrite Forall_forall in IH. split.
    - f_equal. rewrite map_map. apply map_ext_in. intros c Hc. apply (IH c Hc).
    - rewrite concat_map, !map_map. f_equal. apply map_ext_in. intros c Hc. apply (IH c Hc).
  Qed.
  Lemma renumber_lift i ls : Forall is_Leaf ls -> forall c, renumber (map (lift i) ls) c = map (lift i) (renumber ls c).
  Proof using.
    induction 1 as [|l ls [a ->] _ IH]; intros c; [reflexivity|]. destruct a as [m v|[a|z|o]]; cbn [map lift gm renumber]; rewrite IH; reflexivity.
  Qed.
  (** No Python number among the leaves. *)
  Definition no_numbers (t : T) : Prop := forall p z, sub t p <> Some (Leaf (Num z)).
  Lemma as_arrays_id i v w : no_numbers v -> as_arrays as_array v = Ok w -> w = v /\ as_arrays as_array (member i v) = Ok (member i v).
  Proof using.
    revert w. induction v as [[a|z|o]| |k cs IH] using tree_ind'; intros w HN H; cbn in H.
    - injection H as <-. auto.
    - destruct (HN [] z eq_refl).
    - discriminate.
    - injection H as <-. auto.
    - apply rmap_ok in H as (ws & H & ->). assert (HC : forall c, In c cs -> no_numbers c).
      { intros c Hc p z Hp. apply In_nth_error in Hc as (j & Hj). apply (HN (j :: p) z). cbn [sub]. rewrite Hj. exact Hp. }
      assert (G : ws = cs /\ mapM (as_arrays as_array) (map (member i) cs) = Ok (map (member i) cs)).
      { clear HN. revert ws H. induction IH as [|c cs Hc _ IHc]; intros ws H; cbn [mapM map] in *; [injection H as <-; auto|].
        apply bind_ok in H as (w & Hw & H). apply bind_ok in H as (ws' & Hws & H). injection H as <-.
        destruct (Hc w (HC c (or_introl eq_refl)) Hw) as [-> E1]. destruct (IHc (fun d Hd => HC d (or_intror Hd)) ws' Hws) as [-> E2].
        split; [reflexivity|]. rewrite E1. cbn [bind]. rewrite E2. reflexivity. }
      destruct G as [-> G]. split; [reflexivity|]. rewrite on_arrays_node. cbn [as_arrays]. rewrite G. reflexivity.
  Qed.
  Lemma lane_dset i d m v : lane i (dset d m v) = dset (lane i d) m (member i v).
  Proof using.
    induction d as [|[k w] d IH]; [reflexivity|]. cbn [dset lane map fst snd]. destruct (marker_eqb k m); [reflexivity|]. cbn [map fst snd]. f_equal. exact IH.
  Qed.
  Lemma init_lift i ls : Forall is_Leaf ls -> (forall m u, In (Leaf (Idx m (Some u))) ls -> no_numbers u) -> forall acc d, init_dict as_array ls acc = Ok d ->
    init_dict as_array (map (lift i) ls) (lane i acc) = Ok (lane i d).
  Proof using.
    induction 1 as [|l ls [a ->] _ IH]; intros HN acc d H; cbn [map init_dict lift gm] in *; [injection H as <-; reflexivity|].
    destruct a as [m [v|]|o]; cbn [map init_dict lift gm option_map] in *; [| discriminate |].
    - apply bind_ok in H as (w & Hw & H). destruct (as_arrays_id i v w (HN m v (or_introl eq_refl)) Hw) as [-> E]. rewrite E. cbn [bind].
      rewrite <- lane_dset. apply IH; [intros m' u Hu; apply (HN m' u (or_intror Hu))|exact H].
    - assert (G : init_dict as_array (map (lift i) ls) (lane i acc) = Ok (lane i d)) by (apply IH; [intros m' u Hu; apply (HN m' u (or_intror Hu))|exact H]).
      destruct o; exact G.
  Qed.
  Lemma delete_member i m : model_tree (delete_init_state (Fm i m)) = member i (model_tree (delete_init_state m)).
  Proof using.
    induction m as [[k v|[a|z|o]]| |k cs IH] using tree_ind'; try reflexivity. rewrite Fm_node. unfold delete_init_state, VmapState_Model.model_tree in *. cbn [tmap no_leaf].
    rewrite on_arrays_node. f_equal. rewrite !map_map. apply map_ext_Forall. exact IH.
  Qed.
  Lemma restrict_all (d : dict T) : NoDup (keys d) -> restrict d (keys d) [] = Ok d.
  Proof using.
    assert (G : forall d2 acc : dict T, NoDup (keys (acc ++ d2)) -> forall d, d = acc ++ d2 -> restrict d (keys d2) acc = Ok d).
    { clear. induction d2 as [|[k v] d2 IH]; intros acc HN d E; cbn [keys map restrict fst]; [rewrite E, app_nil_r; reflexivity|].
      assert (Hk : ~ In k (keys acc)).
      { intros X. unfold keys in HN. rewrite map_app in HN. cbn [map fst] in HN. apply NoDup_remove_2 in HN. apply HN, in_or_app. left. exact X. }
      assert (HG : dget d k = Some v). { apply In_dget; [rewrite E; exact HN|]. rewrite E. apply in_or_app. right. left. reflexivity. }
      rewrite HG. rewrite dset_new by (destruct (dget acc k) eqn:X; [|reflexivity]; exfalso; apply Hk, dget_In; congruence).
      apply IH; [rewrite <- app_assoc; exact HN|]. rewrite <- app_assoc. exact E. }
    intros HN. exact (G d [] HN d eq_refl).
  Qed.
  Lemma made_keys ls : Forall is_Leaf ls -> forall c acc d, (forall k, In k (keys acc) -> exists m, k = MInt m /\ m < c) -> init_dict as_array (renumber ls c) acc = Ok d ->
    keys d = keys acc ++ concat (map (fun l : tree mleaf => match l with Leaf (Idx m _) => [m] | _ => [] end) (renumber ls c)).
  Proof using.
    induction 1 as [|l ls [a ->] _ IH]; intros c acc d HA H; cbn [renumber init_dict map concat] in *; [injection H as <-; rewrite app_nil_r; reflexivity|].
    destruct a as [m [v|]|o]; cbn [init_dict map concat] in *; [|discriminate|].
    - apply bind_ok in H as (w & _ & H). assert (HN : dget acc (MInt c) = None).
      { destruct (dget acc (MInt c)) eqn:E; [|reflexivity]. destruct (HA (MInt c)) as (x & X & Hx); [apply dget_In; congruence|]. injection X as <-. destruct (Nat.lt_irrefl _ Hx). }
      rewrite (IH (S c) _ d) with (2 := H).
      + rewrite keys_dset_new by exact HN. rewrite <- app_assoc. reflexivity.
      + intros k Hk. rewrite keys_dset_new in Hk by exact HN. apply in_app_iff in Hk as [Hk|[<-|[]]].
        * destruct (HA k Hk) as (x & -> & Hx). exists x. split; [reflexivity|]. apply Nat.lt_lt_succ_r. exact Hx.
        * exists c. split; [reflexivity|]. apply Nat.lt_succ_diag_r.
    - apply IH; assumption.
  Qed.
  Lemma markers_delete (m : tree mleaf) : markers (delete_init_state m) = markers m.
  Proof using.
    unfold markers. rewrite (proj2 (delete_leaves m)), map_map. f_equal. apply map_ext. intros [[k v|o]| |]; reflexivity.
  Qed.
  Lemma init_NoDup ls : forall acc d, NoDup (keys acc) -> init_dict as_array ls acc = Ok d -> NoDup (keys d).
  Proof using.
    induction ls as [|l ls IH]; intros acc d HN H; cbn [init_dict] in H; [injection H as <-; exact HN|].
    destruct l as [[m [v|]|o]| |]; try discriminate; try (apply (IH _ _ HN H)). apply bind_ok in H as (w & _ & H). apply (IH _ _ (NoDup_dset _ _ _ HN) H).
  Qed.
  Lemma make_full h v h' layer s : make_with_state as_array h (of_tree v) = (h', Ok (layer, s)) ->
    (forall m u, In (Leaf (Idx m (Some u))) (leaves no_leaf (of_tree v)) -> no_numbers u) ->
    exists d, h' = h ++ [Some d] /\ s = length h /\ NoDup (keys d) /\ keys d = markers layer /\
      forall i, exists layer_i, make_with_state as_array [] (of_tree (member i v)) = ([Some (lane i d)], Ok (layer_i, 0)) /\ model_tree layer_i = member i (model_tree layer).
  Proof using.
    intros H HN. unfold make_with_state in H. set (m := of_tree v) in *. destruct (unflatten _ _) as [m1|] eqn:Eu; [|discriminate].
    pose proof (leaves_are_Leaf m) as HLf. apply flatten_unflatten in Eu as [T1 L1]; [|apply renumber_Leaf; exact HLf].
    unfold state_init in H. destruct (init_dict as_array (leaves no_leaf m1) []) as [d|] eqn:Ed; [|discriminate]. cbn [alloc] in H. injection H as <- <- <-.
    exists d. split; [reflexivity|]. split; [reflexivity|]. split; [apply (init_NoDup _ [] _ (NoDup_nil _) Ed)|]. split.
    { rewrite markers_delete. unfold markers. rewrite L1 in *. apply (made_keys _ HLf 0 [] d); [intros k []|exact Ed]. }
    intros i. rewrite of_tree_member. fold m. destruct (Fm_leaves i m) as [F1 F2]. destruct (Fm_leaves i m1) as [F3 F4].
    exists (delete_init_state (Fm i m1)). split; [|apply delete_member].
    unfold make_with_state. rewrite F1, F2, renumber_lift by exact HLf. rewrite <- L1, <- T1, <- F3, <- F4, unflatten_flatten. unfold state_init. rewrite F4.
    assert (HN1 : forall k u, In (Leaf (Idx k (Some u))) (leaves no_leaf m1) -> no_numbers u); [|pose proof (init_lift i _ (leaves_are_Leaf m1) HN1 [] d Ed) as G; cbn [lane map] in G; rewrite G; reflexivity].
    rewrite L1. clear - HN HLf. intros k u Hu. assert (G : forall ls c, Forall is_Leaf ls -> In (Leaf (Idx k (Some u))) (renumber ls c) -> exists k', In (Leaf (Idx k' (Some u))) ls).
    { clear. intros ls c HL. revert c. induction HL as [|l ls [a ->] _ IH]; intros c Hin; [destruct Hin|]. cbn [renumber] in Hin.
      destruct a as [m0 v0|o]; destruct Hin as [E|Hin]; try (destruct (IH _ Hin) as (k' & Hk); exists k'; right; exact Hk).
      - injection E as _ ->. exists m0. left. reflexivity.
      - discriminate. }
    destruct (G _ _ HLf Hu) as (k' & Hk). apply (HN k' u Hk).
  Qed.

  Lemma make_members n v : make_vmapped V asize atake astack amove of_num make n = Ok v -> forall i, i < n -> makec (Node tuple_kind []) = Ok (member i v).
  Proof using laws Hmake.
    intros H i Hi. unfold make_vmapped in H.
    destruct (filter_vmap_full V asize atake astack amove of_num uniform laws make makec Hmake _ _ _ _ _ _ _ H) as (spec & iax & out & oax & H1 & H2 & H3 & H4).
    cbn [named_in_axes] in H1. injection H1 as <-. apply resolves_if_axes in H2. apply resolves_if_axes in H3. subst iax oax.
    destruct H4 as [(_ & HN & _)|(m & _ & [HN|E] & _ & _ & _ & HP)]; try discriminate. injection E as <-.
    destruct (HP i Hi) as (t & o & P1 & P2 & P3 & P4). apply slice_if in P1. apply slice_out in P4; [|exact P3]. subst t o. exact P2.
  Qed.

  (** Making a vmapped layer and its state: lane [i] is a layer made alone, with its state. *)
  Theorem C118_made : forall n v h h' layer s, make_vmapped V asize atake astack amove of_num make n = Ok v ->
    make_with_state as_array h (of_tree v) = (h', Ok (layer, s)) ->
    (forall m u, In (Leaf (Idx m (Some u))) (leaves no_leaf (of_tree v)) -> no_numbers u) ->
    exists d, h' = h ++ [Some d] /\ s = length h /\
      forall i, i < n -> exists m_i layer_i, makec (Node tuple_kind []) = Ok m_i /\
        make_with_state as_array [] (of_tree m_i) = ([Some (lane i d)], Ok (layer_i, 0)) /\ model_tree layer_i = member i (model_tree layer).
  Proof using laws Hmake.
    intros n v h h' layer s Hv H HN. destruct (make_full _ _ _ _ _ H HN) as (d & H1 & H2 & _ & _ & H3). exists d. split; [exact H1|]. split; [exact H2|].
    intros i Hi. destruct (H3 i) as (li & E1 & E2). exists (member i v), li. split; [apply (make_members n v Hv i Hi)|]. split; assumption.
  Qed.

  (** A vmapped layer, made and called any number of times: lane [i] is a layer made alone and called on its own inputs. *)
  Theorem C118_lanes : keeps_keys -> forall n v h h1 layer s xs h' ys s', wf h ->
    make_vmapped V asize atake astack amove of_num make n = Ok v -> make_with_state as_array h (of_tree v) = (h1, Ok (layer, s)) ->
    (forall m u, In (Leaf (Idx m (Some u))) (leaves no_leaf (of_tree v)) -> no_numbers u) ->
    Forall (fun a => asize a 0%Z = Ok n) xs -> vmapped_run true h1 s layer (map (fun a => Leaf (Arr a)) xs) = (h', Ok (ys, s')) ->
    forall i, i < n -> exists m_i layer_i d_i d', makec (Node tuple_kind []) = Ok m_i /\
      make_with_state as_array [] (of_tree m_i) = ([Some d_i], Ok (layer_i, 0)) /\ deref h' s' = Some d' /\
      alone (model_tree layer_i) d_i (map (fun a => Leaf (Arr (atake a 0%Z i))) xs) (map (member i) ys) (lane i d').
  Proof using laws Hmake Hcall state_keys keys_state.
    intros KK n v h h1 layer s xs h' ys s' HW Hv Hm HN HF Hr i Hi. destruct (make_full _ _ _ _ _ Hm HN) as (d & -> & -> & N1 & K1 & H3).
    assert (HW1 : wf (h ++ [Some d])).
    { intros x dx Hx. unfold deref in Hx. destruct (nth_error (h ++ [Some d]) x) as [o|] eqn:En; [|discriminate]. apply nth_error_In in En. apply in_app_iff in En. destruct o as [dd|]; [|discriminate]. injection Hx as ->.
      destruct En as [En|[En|[]]]; [|injection En as <-; exact N1]. apply In_nth_error in En as (x' & En). apply (HW x'). unfold deref. rewrite En. reflexivity. }
    assert (Hn : 0 < n) by (apply Nat.le_lt_trans with i; [apply Nat.le_0_l|exact Hi]).
    destruct (run_full true KK n layer Hn _ _ _ _ _ _ _ HW1 (deref_new h d) (fun k Hk => eq_ind_r (In k) Hk K1) HF Hr) as (own & own' & d' & R1 & R2 & R3 & R4 & R5 & R6 & R7).
    rewrite <- K1 in R1. rewrite restrict_all in R1 by exact N1. injection R1 as <-. rewrite <- K1, <- R5 in R2. rewrite restrict_all in R2 by (rewrite R5; exact N1). injection R2 as <-.
    destruct (H3 i) as (li & E1 & E2). exists (member i v), li, (lane i d), d'. split; [apply (make_members n v Hv i Hi)|]. split; [exact E1|]. split; [exact R3|].
    rewrite E2. apply R7. exact Hi.
  Qed.
  (** Seeing a pytree as a model forgets nothing. *)
  Theorem C118_tree : (forall k m, marker_of k = Some m -> index_kind m = k) -> forall v, model_tree (of_tree v) = v.
  Proof using.
    intros HK. induction v as [l| |k cs IH] using tree_ind'; try reflexivity. cbn [VmapState_Model.of_tree].
    assert (E : model_tree (Node k (map of_tree cs)) = Node k cs).
    { unfold VmapState_Model.model_tree in *. cbn [tmap no_leaf]. f_equal. rewrite map_map. rewrite <- (map_id cs) at 2. apply map_ext_Forall. exact IH. }
    destruct (marker_of k) as [m|] eqn:Em; [|exact E]. destruct cs as [|c [|c2 cs]]; [exact E| |exact E].
    cbn. rewrite (HK _ _ Em). reflexivity.
  Qed.
  (** A layer has to return a pair of its output and a state. *)
  Theorem C118_not_a_state : forall f h s layer h1 s1 vs ks r, state_substate h s layer = (h1, Ok s1) -> state_flatten h1 s1 = Ok (vs, ks) -> f (Node (state_kind ks) vs) = Ok r ->
    match r with
    | Node _ [_; Node k _] => keys_of k = None -> with_substate V state_kind keys_of f h s layer = (h1, Err ValueError)
    | Node _ [_; _] => with_substate V state_kind keys_of f h s layer = (h1, Err ValueError)
    | _ => with_substate V state_kind keys_of f h s layer = (h1, Err ValueError)
    end.
  Proof.
    intros f h s layer h1 s1 vs ks r H1 H2 H3. unfold with_substate. rewrite H1, H2. cbn [bind]. rewrite H3. destruct r as [| |k0 [|y [|[| |k us] [|? ?]]]]; try reflexivity. intros ->. reflexivity.
  Qed.
End VmapState.
Print Assumptions C118_not_a_state.
Print Assumptions C118_call.
Print Assumptions C118_closed.
Print Assumptions C118_run.
Print Assumptions C118_run_closed.
Print Assumptions C118_made.
Print Assumptions C118_lanes.
Print Assumptions C118_tree.

(** ** Example: a layer remembers its last input; called, it returns its input, what it remembered, and its parameters. *)
From Coq Require Cantor.
Definition mcode (m : marker) : nat := match m with MObj n => 2 * n | MInt n => 2 * n + 1 end.
Definition mdecode (n : nat) : marker := if Nat.even n then MObj (Nat.div2 n) else MInt (Nat.div2 n).
Lemma mdecode_mcode m : mdecode (mcode m) = m.
Proof.
  destruct m as [n|n]; unfold mdecode, mcode.
  - rewrite Nat.even_mul. cbn [Nat.even orb]. rewrite Nat.div2_double. reflexivity.
  - rewrite Nat.even_add, Nat.even_mul. cbn [Nat.even orb Bool.eqb]. replace (2 * n + 1) with (S (2 * n)) by lia. rewrite Nat.div2_succ_double. reflexivity.
Qed.
Fixpoint lcode (l : list marker) : nat := match l with [] => 0 | m :: l => S (Cantor.to_nat (mcode m, lcode l)) end.
Fixpoint ldecode (fuel n : nat) : list marker :=
  match fuel, n with S f, S n => let p := Cantor.of_nat n in mdecode (fst p) :: ldecode f (snd p) | _, _ => [] end.
Lemma ldecode_lcode l : forall f, lcode l <= f -> ldecode f (lcode l) = l.
Proof.
  induction l as [|m l IH]; intros f H; [destruct f; reflexivity|]. cbn [lcode] in *. destruct f as [|f]; [lia|]. cbn [ldecode]. rewrite Cantor.cancel_of_to. cbn [fst snd].
  rewrite mdecode_mcode, IH; [reflexivity|]. pose proof (Cantor.to_nat_non_decreasing (mcode m) (lcode l)). lia.
Qed.
Fixpoint distinct (l : list marker) : bool := match l with [] => true | m :: l => negb (existsb (marker_eqb m) l) && distinct l end.
Lemma distinct_NoDup l : distinct l = true <-> NoDup l.
Proof.
  induction l as [|m l IH]; cbn [distinct]; [split; [constructor|reflexivity]|]. rewrite Bool.andb_true_iff, IH, Bool.negb_true_iff.
  assert (E : existsb (marker_eqb m) l = false <-> ~ In m l).
  { destruct (existsb (marker_eqb m) l) eqn:E.
    - apply existsb_exists in E as (x & Hx & E). apply marker_eqb_spec in E. subst x. split; [discriminate|tauto].
    - split; [|reflexivity]. intros _ Hm. assert (existsb (marker_eqb m) l = true) by (apply existsb_exists; exists m; split; [exact Hm|apply marker_eqb_refl]). congruence. }
  rewrite E. split; [intros [H1 H2]; constructor; assumption|intros H; inversion H; auto].
Qed.
Definition ex_keys (k : nat) : option (list marker) := let l := ldecode k k in if Nat.eqb (lcode l) k && distinct l then Some l else None.
Example C118_ex_encoding : (forall ks, NoDup ks -> ex_keys (lcode ks) = Some ks) /\ (forall k ks, ex_keys k = Some ks -> k = lcode ks /\ NoDup ks).
Proof.
  split.
  - intros ks H. unfold ex_keys. rewrite ldecode_lcode by lia. rewrite Nat.eqb_refl. apply distinct_NoDup in H. rewrite H. reflexivity.
  - intros k ks H. unfold ex_keys in H. destruct (Nat.eqb_spec (lcode (ldecode k k)) k) as [E|]; [|discriminate]. destruct (distinct (ldecode k k)) eqn:D; [|discriminate].
    injection H as <-. split; [auto|]. apply distinct_NoDup. exact D.
Qed.
Definition ex_index (m : marker) : nat := 10 + mcode m.
Definition ex_marker (k : nat) : option marker := if k <? 10 then None else Some (mdecode (k - 10)).
Example C118_ex_tree : forall k m, ex_marker k = Some m -> ex_index m = k.
Proof.
  intros k m H. unfold ex_marker in H. destruct (Nat.ltb_spec k 10); [discriminate|]. injection H as <-. unfold ex_index, mdecode.
  assert (E0 : mcode (mdecode (k - 10)) = k - 10); [|unfold mdecode in E0; rewrite E0; lia]. unfold mdecode. destruct (Nat.even (k - 10)) eqn:E; cbn [mcode].
  - apply Nat.even_spec in E as (x & E). rewrite E, Nat.div2_double. reflexivity.
  - assert (O : Nat.odd (k - 10) = true) by (rewrite <- Nat.negb_even, E; reflexivity). apply Nat.odd_spec in O as (x & O). rewrite O, !Nat.add_1_r. rewrite Nat.div2_succ_double. reflexivity.
Qed.
Definition ex_call {X} (t : tree (gleaf X)) : res (tree (gleaf X)) :=
  match t with Node _ [Node 5 (_ :: ws); x; Node sk [c]] => Ok (Node 0 [Node 0 (x :: c :: ws); Node sk [x]]) | _ => Err TypeError end.
Lemma ex_call_traces : traces arr any (ex_call (X := bat arr)) (ex_call (X := arr)).
Proof.
  intros n t o HB H. unfold ex_call in H.
  repeat match type of H with context [match ?y with _ => _ end] => destruct y; try discriminate end. injection H as <-. split.
  - inversion HB as [| |? ? HF]; subst. inversion HF as [|? ? M HF1]; subst. inversion M as [| |? ? MF]; subst. inversion MF; subst. inversion HF1 as [|? ? X1 HF2]; subst. inversion HF2 as [|? ? S1 _]; subst.
    inversion S1 as [| |? ? SF]; subst. inversion SF; subst. constructor. constructor; [constructor; constructor; [assumption|constructor; assumption]|]. constructor; [|constructor]. constructor. constructor; [assumption|constructor].
  - intros i t' _ HE. inversion HE as [| |? ? ys HF]; subst. inversion HF as [|? a ? ? H1 HF1]; subst. inversion HF1 as [|? b ? ? H2 HF2]; subst. inversion HF2 as [|? c ? ? H3 HF3]; subst. inversion HF3; subst.
    inversion H1 as [| |? ? zs MF]; subst. inversion MF; subst. inversion H3 as [| |? ? us SF]; subst. inversion SF as [|? cc ? ? C1 SF1]; subst. inversion SF1; subst.
    eexists. split; [reflexivity|]. constructor. constructor; [constructor; constructor; [assumption|constructor; assumption]|]. constructor; [|constructor]. constructor. constructor; [assumption|constructor].
Qed.
Example C118_ex_keeps : keeps_keys arr lcode (ex_call (X := arr)).
Proof.
  intros layer x d k y t H. destruct d as [|[m v] [|? ?]]; unfold ex_call, state_tree in H; cbn [keys map fst snd] in H;
  repeat match type of H with context [match ?y with _ => _ end] => destruct y; try discriminate end.
  injection H as _ _ <-. exists [(m, x)]. split; reflexivity.
Qed.
Definition ex_init (init : gleaf (bat arr)) (t : tree (gleaf (bat arr))) : res (tree (gleaf (bat arr))) := Ok (Node 5 [Node (ex_index (MObj 3)) [Leaf init]]).
Local Notation ex_made init := (make_vmapped arr i_size i_take Rw Ensemble_Props.ex_move Sc (ex_init init) 2).
Local Notation ex_vcall mapped := (vmapped_call arr i_size i_take Rw Ensemble_Props.ex_move Sc 9 ex_index lcode ex_keys ex_call mapped).
Local Notation ex_vrun mapped := (vmapped_run arr i_size i_take Rw Ensemble_Props.ex_move Sc 9 ex_index lcode ex_keys ex_call mapped).
Local Notation ex_with := (make_with_state (as_array arr Sc) []).
(** Two lanes: both forms of the call agree, each lane remembers its own input. *)
Example C118_ex : exists v layer, ex_made (Arr (Unb (Sc 7))) = Ok v /\ ex_with (of_tree arr ex_marker v) = ([Some [(MInt 0, Leaf (Arr (Rw [Sc 7; Sc 7])))]], Ok (layer, 0)) /\
  forall mapped, ex_vrun mapped [Some [(MInt 0, Leaf (Arr (Rw [Sc 7; Sc 7])))]] 0 layer (map (fun a => Leaf (Arr a)) [Rw [Sc 1; Sc 2]; Rw [Sc 3; Sc 4]]) =
    ([None; Some [(MInt 0, Leaf (Arr (Rw [Sc 7; Sc 7])))]; Some [(MInt 0, Leaf (Arr (Rw [Sc 1; Sc 2])))]; None;
      Some [(MInt 0, Leaf (Arr (Rw [Sc 1; Sc 2])))]; Some [(MInt 0, Leaf (Arr (Rw [Sc 3; Sc 4])))]; Some [(MInt 0, Leaf (Arr (Rw [Sc 3; Sc 4])))]],
     Ok ([Node 0 [Leaf (Arr (Rw [Sc 1; Sc 2])); Leaf (Arr (Rw [Sc 7; Sc 7]))]; Node 0 [Leaf (Arr (Rw [Sc 3; Sc 4])); Leaf (Arr (Rw [Sc 1; Sc 2]))]], 6)).
Proof. eexists. eexists. split; [vm_compute; reflexivity|]. split; [vm_compute; reflexivity|]. intros []; vm_compute; reflexivity. Qed.

(** False: the documented form does for a layer with arrays what calling each member would. Its arrays are not mapped. *)
Theorem C118_closed_refuted : exists h s layer a y h' s', array_laws arr i_size i_take Rw Ensemble_Props.ex_move any /\
  ex_vcall false h s layer (Leaf (Arr a)) = (h', Ok (y, s')) /\ i_size a 0%Z = Ok 2 /\
  forall own own' k, ex_call (Node tuple_kind [on_arrays (fun b => i_take b 0%Z 0) (model_tree arr 9 ex_index layer); Leaf (Arr (i_take a 0%Z 0)); state_tree arr lcode (lane arr i_take 0 own)])
    <> Ok (Node k [on_arrays (fun b => i_take b 0%Z 0) y; state_tree arr lcode (lane arr i_take 0 own')]).
Proof.
  exists [Some [(MInt 0, Leaf (Arr (Rw [Sc 7; Sc 7])))]], 0, (Node 5 [Leaf (Idx (MInt 0) None); Leaf (Other (Arr (Rw [Sc 10; Sc 20])))]), (Rw [Sc 1; Sc 2]).
  eexists. eexists. eexists. split; [apply C31_sizes_ex|]. split; [vm_compute; reflexivity|]. split; [reflexivity|].
  intros own own' k H. destruct own as [|[m v] [|? ?]]; cbn in H; try discriminate.
Qed.
Print Assumptions C118_closed_refuted.
(** False: any initial value can be used. A Python number is not stacked by [filter_vmap]; the state made of it has no axis to map. The
    layer alone works. *)
Theorem C118_number_refuted : exists v h layer s x e, ex_made (Num 7) = Ok v /\ ex_with (of_tree arr ex_marker v) = (h, Ok (layer, s)) /\ i_size x 0%Z = Ok 2 /\
  (forall mapped, snd (ex_vcall mapped h s layer (Leaf (Arr x))) = Err e) /\
  exists d d' k y, deref h s = Some d /\ ex_call (Node tuple_kind [model_tree arr 9 ex_index layer; Leaf (Arr (i_take x 0%Z 0)); state_tree arr lcode d]) = Ok (Node k [y; state_tree arr lcode d']).
Proof.
  eexists. eexists. eexists. eexists. exists (Rw [Sc 1; Sc 2]). eexists. split; [vm_compute; reflexivity|]. split; [vm_compute; reflexivity|]. split; [reflexivity|].
  split; [intros []; vm_compute; reflexivity|]. eexists. exists [(MInt 0, Leaf (Arr (Sc 1)))]. eexists. eexists. split; [vm_compute; reflexivity|]. vm_compute. reflexivity.
Qed.
Print Assumptions C118_number_refuted.
