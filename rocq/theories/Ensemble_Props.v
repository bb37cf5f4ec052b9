(** C104: ensembles. *)
From Verif Require Import Vmap_Spec Vmap_Proofs Vmap_Proofs2 Vmap_Props Ensemble_Model Act_Props.
Local Open Scope nat_scope.
Local Open Scope list_scope.

Section Ensemble.
  Variable V : Type.
  Variable asize : V -> Z -> res nat.
  Variable atake : V -> Z -> nat -> V.
  Variable astack : list V -> V.
  Variable amove : V -> Z -> res V.
  Variable of_num : Z -> V.
  Variable uniform : list V -> Prop.
  Hypothesis laws : array_laws V asize atake astack amove uniform.
  Hypothesis sizes : size_law V asize astack amove uniform.
  Variables make call : tree (gleaf (bat V)) -> res (tree (gleaf (bat V))).
  Variables makec callc : tree (gleaf V) -> res (tree (gleaf V)).
  Hypothesis Hmake : traces V uniform make makec.
  Hypothesis Hcall : traces V uniform call callc.
  Local Notation T := (tree (gleaf V)).
  (** Member [i] of a stacked PyTree: element [i] of every array, anything else as it is. *)
  Local Notation member i := (on_arrays (fun a => atake a 0%Z i)).

  Lemma no_axes (t : T) : leaves no_leaf (if_axes t) = [] -> forall i, member i t = t.
  Proof.
    intros H i. induction t as [[a|z|n]| |k cs IH] using tree_ind'; try reflexivity; [discriminate|].
    cbn [if_axes leaves no_leaf] in H. cbn [on_arrays]. f_equal. induction IH as [|c cs Hc _ IHc]; [reflexivity|]. cbn [map concat] in *.
    apply app_eq_nil in H as [H1 H2]. rewrite Hc by exact H1. rewrite IHc by exact H2. reflexivity.
  Qed.
  Lemma if_axes_elem j out o : elem_tree V j out o -> if_axes (X := V) o = if_axes out.
  Proof.
    revert o. induction out as [l| |k cs IH] using tree_ind'; intros o H; inversion H as [? y Hy| |? ? ys HF]; subst.
    - destruct l, y; cbn in Hy; try contradiction; reflexivity.
    - reflexivity.
    - cbn [if_axes]. f_equal. clear H. revert ys HF. induction IH as [|c cs Hc _ IHc]; intros ys HF; inversion HF; subst; [reflexivity|]. cbn [map]. f_equal; eauto.
  Qed.
  Lemma sizes_some n (t : T) : sizes_are V asize n (if_axes t) t -> leaves no_leaf (if_axes t) <> [] ->
    forall m, sizes_are V asize m (if_axes t) t -> m = n.
  Proof.
    intros H HN m H2. apply (sizes_if V asize) in H. apply (sizes_if V asize) in H2.
    assert (E : exists p a, sub t p = Some (Leaf (Arr a))).
    { clear -HN. induction t as [[a|z|o]| |k cs IH] using tree_ind'; cbn [if_axes leaves no_leaf] in HN; try (exfalso; apply HN; reflexivity).
      - exists [], a. reflexivity.
      - assert (G : exists i c, nth_error cs i = Some c /\ leaves no_leaf (if_axes c) <> []).
        { clear IH. induction cs as [|c cs IHc]; [exfalso; apply HN; reflexivity|]. cbn [map concat] in HN.
          destruct (leaves no_leaf (if_axes c)) eqn:E.
          - destruct IHc as (i & d & H1 & H2); [exact HN|]. exists (S i), d. auto.
          - exists 0, c. split; [reflexivity|]. rewrite E. discriminate. }
        destruct G as (i & c & Hi & Hc). rewrite Forall_forall in IH. destruct (IH c (nth_error_In _ _ Hi) Hc) as (p & a & Hp).
        exists (i :: p), a. cbn [sub]. rewrite Hi. exact Hp. }
    destruct E as (p & a & Hp). pose proof (H p a Hp). pose proof (H2 p a Hp). congruence.
  Qed.
  Lemma slice_keep j t ax t' : leafwise (fun _ : gleaf V => None) t ax -> slice V atake of_num false j ax t t' -> t' = t.
  Proof.
    revert ax t'. induction t as [l| |k cs IH] using tree_ind'; intros ax t' HL H; inversion HL as [?| |? ? xs HF]; subst.
    - cbn in H. inversion H; reflexivity.
    - inversion H; reflexivity.
    - inversion H as [| | | |? ? ? ds HS]; subst. f_equal. clear H HL. revert xs ds HF HS. induction IH as [|c cs Hc _ IHc]; intros xs ds HF HS; inversion HF; subst; inversion HS; subst; [reflexivity|]. f_equal; eauto.
  Qed.

  Lemma lengths_sizes n (t : T) : lengths asize n t -> sizes_are V asize n (if_axes t) t.
  Proof.
    induction t as [[a|z|o]| |k cs IH] using tree_ind'; intros H; cbn [if_axes]; try constructor; [exact (H [] a eq_refl)|].
    assert (HC : forall i c, nth_error cs i = Some c -> lengths asize n c).
    { intros i c Hi p a Ha. apply (H (i :: p)). cbn [sub]. rewrite Hi. exact Ha. }
    clear H. induction IH as [|c cs Hc _ IHc]; cbn [map]; constructor; [apply Hc; exact (HC 0 c eq_refl)|]. apply IHc. intros i d Hi. exact (HC (S i) d Hi).
  Qed.
  Lemma out_lengths n : forall (x : tree (gleaf (bat V))) (r : T), sizes_are V asize n (if_axes x) r -> batched V uniform n x ->
    (forall i, i < n -> exists o, elem_tree V i x o /\ slice V atake of_num true i (if_axes x) r o) -> 0 < n -> lengths asize n r.
  Proof.
    induction x as [l| |k cs IH] using tree_ind'; intros r Hr Hb Hp H0 p a Ha.
    - destruct l as [b|z|o]; cbn [if_axes] in Hr; inversion Hr; subst; try (destruct p; discriminate).
      + destruct p; [|discriminate]. injection Ha as <-. assumption.
      + destruct p; [|discriminate]. injection Ha as ->. destruct (Hp 0 H0) as (o & He & Hs). inversion He as [? y Hy| |]; subst. destruct y; cbn in Hy; try contradiction. inversion Hs; subst; try discriminate.
      + destruct p; [|discriminate]. injection Ha as ->. destruct (Hp 0 H0) as (o' & He & Hs). inversion He as [? y Hy| |]; subst. destruct y; cbn in Hy; try contradiction. inversion Hs; subst; try discriminate.
    - cbn [if_axes] in Hr. inversion Hr; subst; [|destruct p; discriminate]. destruct p; [|discriminate]. destruct (Hp 0 H0) as (o & He & Hs). inversion He; subst. inversion Hs.
    - cbn [if_axes] in Hr. inversion Hr as [| | |? ? rs HF]; subst. destruct p as [|i p]; [discriminate|]. cbn [sub] in Ha. destruct (nth_error rs i) as [c|] eqn:Ec; [|discriminate].
      inversion Hb as [| |? ? HB']; subst.
      assert (Hp' : forall j, j < n -> exists os, Forall2 (elem_tree V j) cs os /\ slices V atake of_num true j (map if_axes cs) rs os).
      { intros j Hj. destruct (Hp j Hj) as (o & He & Hs). inversion He; subst. inversion Hs; subst. eauto. }
      clear Hp Hr Hb. revert i rs HF Ec HB' Hp'. induction IH as [|x xs Hx _ IHx]; intros i rs HF Ec HB' Hp'; cbn [map] in HF; inversion HF; subst; [destruct i; discriminate|].
      inversion HB'; subst. destruct i as [|i]; cbn [nth_error] in Ec.
      + injection Ec as <-. eapply Hx; eauto. intros j Hj. destruct (Hp' j Hj) as (os & F1 & F2). inversion F1; subst. cbn [map] in F2. inversion F2; subst. eauto.
      + eapply IHx; eauto. intros j Hj. destruct (Hp' j Hj) as (os & F1 & F2). inversion F1; subst. cbn [map] in F2. inversion F2; subst. eauto.
  Qed.

  (** What [make_ensemble] returns: member [i] is the model made from key [i]. *)
  Theorem C104_members : forall keys ensemble,
    make_ensemble V asize atake astack amove of_num make (Leaf (Arr keys)) = Ok ensemble ->
    exists n, asize keys 0%Z = Ok n /\ (0 < n -> lengths asize n ensemble) /\
      forall i, i < n -> makec (Node tuple_kind [Leaf (Arr (atake keys 0%Z i))]) = Ok (member i ensemble).
  Proof.
    intros keys ens H. unfold make_ensemble in H.
    destruct (filter_vmap_full V asize atake astack amove of_num uniform laws make makec Hmake _ _ _ _ _ _ _ H) as (spec & iax & out & oax & H1 & H2 & H3 & H4).
    cbn [named_in_axes] in H1. injection H1 as <-. apply resolves_if_axes in H2. apply resolves_if_axes in H3. subst iax oax.
    destruct H4 as [(HN & _)|(n & HS & _ & HB & HR & _ & HP)]; [discriminate|]. specialize (HR sizes).
    pose proof (sizes_if V asize _ _ HS [0] keys eq_refl) as Hn. exists n. split; [exact Hn|]. split.
    - intros H0. eapply (out_lengths n out); eauto. intros i Hi. destruct (HP i Hi) as (t & o & _ & _ & S3 & S4). eauto.
    - intros i Hi. destruct (HP i Hi) as (t & o & S1 & S2 & S3 & S4). apply slice_if in S1. apply slice_out in S4; [|exact S3]. subst t o. exact S2.
  Qed.

  (** The same input for every member: output [i] is what the model made from key [i] returns. *)
  Theorem C104_same_input : forall keys ensemble x y,
    make_ensemble V asize atake astack amove of_num make (Leaf (Arr keys)) = Ok ensemble ->
    evaluate_ensemble V asize atake astack amove of_num call ensemble x = Ok y ->
    forall n i, asize keys 0%Z = Ok n -> i < n ->
    exists model, makec (Node tuple_kind [Leaf (Arr (atake keys 0%Z i))]) = Ok model /\
      callc (Node tuple_kind [model; x]) = Ok (member i y).
  Proof.
    intros keys ens x y H1 H2 n i Hk Hi. destruct (C104_members keys ens H1) as (n' & Hk' & HL & HM). assert (n' = n) by congruence. subst n'.
    exists (member i ens). split; [exact (HM i Hi)|]. unfold evaluate_ensemble in H2.
    destruct (filter_vmap_full V asize atake astack amove of_num uniform laws call callc Hcall _ _ _ _ _ _ _ H2) as (spec & iax & out & oax & A1 & A2 & A3 & A4).
    cbn [named_in_axes] in A1. injection A1 as <-. apply resolves_if_axes in A3. subst oax.
    inversion A2 as [| | |? ? ? xs HA]; subst. inversion HA as [|? ? ax1 ? ? xs1 R1 RA1]; subst. inversion RA1 as [|? ? ax2 ? ? xs2 R2 RA2]; subst. inversion RA2; subst.
    apply resolves_if_axes in R1. subst ax1. inversion R2 as [? ? LW| | |]; subst.
    destruct A4 as [(E & _ & Eo & Hc & He)|(n' & HS & _ & HB & _ & HE & HP)].
    - cbn [leaves no_leaf map concat] in E. apply app_eq_nil in E as [E _]. rewrite (no_axes ens E). rewrite <- (if_axes_elem _ _ _ He) in Eo. rewrite (no_axes y Eo). exact Hc.
    - assert (Hn : leaves no_leaf (if_axes ens) <> []).
      { intros E. apply HE; [|reflexivity]. cbn [leaves no_leaf map concat]. rewrite E, app_nil_r. cbn [app]. clear -LW.
        revert ax2 LW. induction x as [l| |k cs IH] using tree_ind'; intros ax LW; inversion LW as [?| |? ? xs HF]; subst; [reflexivity|reflexivity|].
        cbn [leaves no_leaf]. clear LW. revert xs HF. induction IH as [|c cs Hc _ IHc]; intros xs HF; inversion HF; subst; [reflexivity|]. cbn [map concat]. rewrite Hc by assumption. cbn [app]. apply IHc. assumption. }
      inversion HS as [| | |? ? ? HF]; subst. inversion HF as [|? ? ? ? S1 _]; subst.
      assert (n' = n).
      { assert (S2 : sizes_are V asize n (if_axes ens) ens) by (apply lengths_sizes; apply HL; lia). apply (sizes_some n ens S2 Hn n' S1). }
      subst n'. destruct (HP i Hi) as (t & o & P1 & P2 & P3 & P4). inversion P1 as [| | | |? ? ? ds PS]; subst. inversion PS as [|? ? d1 ? ? ds1 Q1 PS1]; subst. inversion PS1 as [|? ? d2 ? ? ds2 Q2 PS2]; subst. inversion PS2; subst.
      apply slice_if in Q1. apply (slice_keep _ _ _ _ LW) in Q2. subst d1 d2. apply slice_out in P4; [|exact P3]. subst o. exact P2.
  Qed.

  (** An input for each member. *)
  Theorem C104_own_input : forall keys ensemble x y,
    make_ensemble V asize atake astack amove of_num make (Leaf (Arr keys)) = Ok ensemble ->
    evaluate_per_ensemble V asize atake astack amove of_num call ensemble (Leaf (Arr x)) = Ok y ->
    forall n m, asize keys 0%Z = Ok n -> asize x 0%Z = Ok m ->
    (forall i, i < n -> i < m -> exists model, makec (Node tuple_kind [Leaf (Arr (atake keys 0%Z i))]) = Ok model /\
      callc (Node tuple_kind [model; Leaf (Arr (atake x 0%Z i))]) = Ok (member i y)) /\
    (0 < n -> (exists p a, sub ensemble p = Some (Leaf (Arr a))) -> m = n).
  Proof.
    intros keys ens x y H1 H2 n m Hk Hm. destruct (C104_members keys ens H1) as (n' & Hk' & HL & HM). assert (n' = n) by congruence. subst n'.
    unfold evaluate_per_ensemble in H2.
    destruct (filter_vmap_full V asize atake astack amove of_num uniform laws call callc Hcall _ _ _ _ _ _ _ H2) as (spec & iax & out & oax & A1 & A2 & A3 & A4).
    cbn [named_in_axes] in A1. injection A1 as <-. apply resolves_if_axes in A2. apply resolves_if_axes in A3. subst iax oax.
    destruct A4 as [(E & _)|(n' & HS & _ & HB & _ & HE & HP)].
    { exfalso. cbn [if_axes map leaves no_leaf concat app] in E. apply app_eq_nil in E as [_ E]. discriminate. }
    apply sizes_if in HS. assert (n' = m) by (pose proof (HS [1] x eq_refl); congruence). subst n'. split.
    - intros i Hi Hi'. exists (member i ens). split; [exact (HM i Hi)|]. destruct (HP i Hi') as (t & o & P1 & P2 & P3 & P4).
      apply slice_if in P1. apply slice_out in P4; [|exact P3]. subst t o. exact P2.
    - intros H0 (p & a & Hp). pose proof (HS (0 :: p) a Hp). pose proof (HL H0 p a Hp). congruence.
  Qed.
End Ensemble.
Print Assumptions C104_members.
Print Assumptions C104_same_input.
Print Assumptions C104_own_input.

(** ** Example: a model is a key with an activation function; called, it returns its input and its key. *)
Definition ex_make {X} (t : tree (gleaf X)) : res (tree (gleaf X)) :=
  match t with Node _ [k] => Ok (Node 3 [k; Leaf (Obj 7)]) | _ => Err TypeError end.
Definition ex_call {X} (t : tree (gleaf X)) : res (tree (gleaf X)) :=
  match t with Node _ [Node 3 [w; Leaf (Obj 7)]; x] => Ok (Node 0 [x; w]) | _ => Err TypeError end.
Definition ex_move (a : arr) (z : Z) : res arr := if Z.eqb z 0 then Ok a else Err ValueError.
Lemma ex_make_traces : traces arr any (ex_make (X := bat arr)) (ex_make (X := arr)).
Proof.
  intros n t o HB H. destruct t as [l| |k [|x [|? ?]]]; try discriminate. injection H as <-. split.
  - inversion HB as [| |? ? HF]; subst. inversion HF; subst. constructor. constructor; [assumption|]. constructor; [|constructor]. constructor. discriminate.
  - intros i t' _ HE. inversion HE as [| |? ? ys HF]; subst. inversion HF as [|? a ? ? H1 HF1]; subst. inversion HF1; subst.
    exists (Node 3 [a; Leaf (Obj 7)]). split; [reflexivity|]. constructor. repeat constructor; auto.
Qed.
Lemma ex_call_traces : traces arr any (ex_call (X := bat arr)) (ex_call (X := arr)).
Proof.
  intros n t o HB H. destruct t as [l| |k [|[?| |k2 [|w [|f [|? ?]]]] [|x [|? ?]]]]; try discriminate; cbn in H; repeat match type of H with context [match ?y with _ => _ end] => destruct y eqn:?; try discriminate end.
  subst. injection H as <-. split.
  - inversion HB as [| |? ? HF]; subst. inversion HF as [|? ? M HF1]; subst. inversion M as [| |? ? MF]; subst. inversion MF; subst. inversion HF1; subst. constructor. repeat constructor; auto.
  - intros i t' _ HE. inversion HE as [| |? ? ys HF]; subst. inversion HF as [|? a ? ? H1 HF1]; subst. inversion HF1 as [|? b ? ? H2 HF2]; subst. inversion HF2; subst.
    inversion H1 as [| |? ? zs MF]; subst. inversion MF as [|? c ? ? C1 MF1]; subst. inversion MF1 as [|? d ? ? D1 MF2]; subst. inversion MF2; subst.
    inversion D1 as [? yy Hy| |]; subst. destruct yy; cbn in Hy; try contradiction. subst.
    eexists. split; [reflexivity|]. constructor. repeat constructor; auto.
Qed.
Example C104_ex : let keys := Rw [Sc 11; Sc 12; Sc 13] in let ens := Node 3 [Leaf (Arr keys); Leaf (Obj 7)] in
  make_ensemble arr i_size i_take Rw ex_move Sc ex_make (Leaf (Arr keys)) = Ok ens /\
  evaluate_ensemble arr i_size i_take Rw ex_move Sc ex_call ens (Leaf (Arr (Rw [Sc 1; Sc 2]))) =
    Ok (Node 0 [Leaf (Arr (Rw [Rw [Sc 1; Sc 2]; Rw [Sc 1; Sc 2]; Rw [Sc 1; Sc 2]])); Leaf (Arr keys)]) /\
  evaluate_per_ensemble arr i_size i_take Rw ex_move Sc ex_call ens (Leaf (Arr (Rw [Sc 1; Sc 2; Sc 3]))) =
    Ok (Node 0 [Leaf (Arr (Rw [Sc 1; Sc 2; Sc 3])); Leaf (Arr keys)]) /\
  evaluate_per_ensemble arr i_size i_take Rw ex_move Sc ex_call ens (Leaf (Arr (Rw [Sc 1; Sc 2]))) = Err ValueError.
Proof. repeat split; vm_compute; reflexivity. Qed.
