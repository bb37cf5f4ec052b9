From Verif Require Import Base Ckpt_Model Ckpt_Spec Ckpt_Proofs.
From Coq Require Import Permutation Sorted.
Open Scope Z_scope.

(** * Sorting *)
Section Sort.
  Context {N : Type}.
  Definition le_key (x y : Z * N) : Prop := fst x <= fst y.

  Lemma insert_perm x (l : list (Z * N)) : Permutation (insert x l) (x :: l).
  Proof.
    induction l as [|y l IH]; cbn; auto. destruct (fst x <=? fst y); auto.
    rewrite IH. apply perm_swap.
  Qed.
  Lemma isort_perm (l : list (Z * N)) : Permutation (isort l) l.
  Proof. induction l; cbn; auto. rewrite insert_perm. auto. Qed.

  Lemma insert_sorted x (l : list (Z * N)) :
    StronglySorted le_key l -> StronglySorted le_key (insert x l).
  Proof.
    induction l as [|y l IH]; cbn; intros H; [repeat constructor|].
    inversion H as [|? ? H1 H2]; subst. destruct (Z.leb_spec (fst x) (fst y)).
    - constructor; auto. constructor; auto.
      eapply Forall_impl; [|exact H2]. unfold le_key. intros; lia.
    - constructor; auto. apply Forall_forall. intros z Hz.
      apply (Permutation_in _ (insert_perm x l)) in Hz. destruct Hz as [<-|Hz]; [unfold le_key; lia|].
      rewrite Forall_forall in H2. auto.
  Qed.
  Lemma isort_sorted (l : list (Z * N)) : StronglySorted le_key (isort l).
  Proof. induction l; cbn; [constructor|]. apply insert_sorted; auto. Qed.

  Lemma perm_filter (p : Z * N -> bool) l l' :
    Permutation l l' -> Permutation (List.filter p l) (List.filter p l').
  Proof.
    induction 1; cbn; auto.
    - destruct (p x); auto.
    - destruct (p x), (p y); auto. apply perm_swap.
    - etransitivity; eauto.
  Qed.

  Lemma sorted_split n (l : list (Z * N)) :
    StronglySorted le_key l ->
    l = List.filter (fun x => fst x <? n) l ++ List.filter (fun x => negb (fst x <? n)) l.
  Proof.
    induction 1 as [|x l H1 IH H2]; cbn; auto.
    destruct (Z.ltb_spec (fst x) n); cbn; [congruence|].
    assert (E : List.filter (fun x => fst x <? n) l = []).
    { clear IH H1. induction H2 as [|z l Hz H2 IH]; auto. cbn. destruct (Z.ltb_spec (fst z) n); auto.
      unfold le_key in Hz. lia. }
    assert (E2 : List.filter (fun x => negb (fst x <? n)) l = l).
    { rewrite E in IH. cbn in IH. auto. }
    rewrite E, E2. reflexivity.
  Qed.

  Lemma StronglySorted_nth (R : Z * N -> Z * N -> Prop) l : StronglySorted R l ->
    forall j k x y, (j < k)%nat -> nth_error l j = Some x -> nth_error l k = Some y -> R x y.
  Proof.
    induction 1 as [|a l H1 IH H2]; intros j k x y Hjk Hj Hk.
    - destruct j; discriminate.
    - destruct j, k; try lia; cbn in *.
      + inversion Hj; subst. rewrite Forall_forall in H2. apply H2. eapply nth_error_In; eauto.
      + eapply (IH j k); eauto; lia.
  Qed.

  Lemma StronglySorted_app_l (R : Z * N -> Z * N -> Prop) l l' :
    StronglySorted R (l ++ l') -> StronglySorted R l.
  Proof.
    induction l as [|x l IH]; cbn; intros H; [constructor|].
    inversion H; subst. constructor; auto. apply Forall_app in H3. tauto.
  Qed.
End Sort.

Lemma nth_error_firstn {A} (l : list A) m k :
  nth_error (firstn m l) k = if Nat.ltb k m then nth_error l k else None.
Proof.
  revert m k; induction l as [|x l IH]; intros m k.
  - rewrite firstn_nil. destruct k, (Nat.ltb _ m); reflexivity.
  - destruct m, k; cbn [firstn nth_error]; try reflexivity. rewrite IH. reflexivity.
Qed.

Lemma filter_all {A} (p : A -> bool) l : (forall x, In x l -> p x = true) -> List.filter p l = l.
Proof. induction l; cbn; intros H; auto. rewrite H by auto. rewrite IHl; auto. Qed.
Lemma filter_none {A} (p : A -> bool) l : (forall x, In x l -> p x = false) -> List.filter p l = [].
Proof. induction l; cbn; intros H; auto. rewrite H by auto. auto. Qed.

Section Proofs2.
  Context {N Bf G P : Type}.
  Variable fN : N -> Bf -> N.
  Variable fB : N -> Bf -> Bf.
  Variable intmax : Z.
  Variable fill : N.
  Variable C : Z.
  Variable max_steps : option Z.
  Variables (v0 : N) (b0 : Bf).
  Hypothesis HC : 1 <= C.

  Notation traj := (traj fN fB v0 b0).
  Notation all_saved := (all_saved C max_steps).
  Notation buf_inv := (buf_inv fN fB intmax C v0 b0).
  Notation good := (good_checkpoints fN fB v0 b0).

  Lemma firstn_good n (b : list (Z * N)) : Z.of_nat n <= intmax -> buf_inv (Z.of_nat n) b ->
    let l := isort b in
    let m := Nat.min n (Z.to_nat C) in
    length l = Z.to_nat C /\ good n (firstn m l).
  Proof.
    intros Him (Hb & Hk & Hdist & H0 & H5) l m.
    assert (Hll : length l = Z.to_nat C).
    { unfold l. rewrite <- Hb. apply Permutation_length, isort_perm. }
    split; [exact Hll|].
    set (p := fun x : Z * N => fst x <? Z.of_nat n).
    assert (Hfb : List.filter p b = firstn m b).
    { rewrite <- (firstn_skipn m b) at 1. rewrite filter_app, filter_all, filter_none, app_nil_r; auto.
      - intros [s v] Hx. apply In_nth_error in Hx. destruct Hx as [k Hx].
        assert (Hx' : nth_error b (m + k) = Some (s, v)).
        { clear - Hx. revert Hx. generalize (m) as m0. intros m0. revert b. induction m0; cbn; auto.
          destruct b; cbn; auto. destruct k; discriminate. }
        assert (Hlt : (m + k < length b)%nat) by (apply nth_error_Some; congruence).
        specialize (Hk _ _ _ Hx').
        destruct (Z.ltb_spec (Z.of_nat (m + k)) (Z.min (Z.of_nat n) C)); [unfold m in *; lia|].
        unfold p; cbn. lia.
      - intros [s v] Hx. apply In_nth_error in Hx. destruct Hx as [k Hx].
        rewrite nth_error_firstn in Hx. destruct (Nat.ltb_spec k m); [|discriminate].
        specialize (Hk _ _ _ Hx).
        destruct (Z.ltb_spec (Z.of_nat k) (Z.min (Z.of_nat n) C)); [|unfold m in *; lia].
        unfold p; cbn. lia. }
    assert (Hperm : Permutation (List.filter p l) (firstn m b)).
    { rewrite <- Hfb. apply perm_filter, isort_perm. }
    assert (Hlen : length (List.filter p l) = m).
    { rewrite (Permutation_length Hperm), firstn_length, Hb. unfold m; lia. }
    assert (Hsort : StronglySorted le_key l) by apply isort_sorted.
    assert (Hl : firstn m l = List.filter p l).
    { rewrite (sorted_split (Z.of_nat n) l Hsort) at 1. fold p. rewrite <- Hlen.
      rewrite firstn_app, Nat.sub_diag, firstn_all. cbn. apply app_nil_r. }
    rewrite Hl.
    assert (HsA : StronglySorted le_key (List.filter p l)).
    { pose proof Hsort as H. rewrite (sorted_split (Z.of_nat n) l Hsort) in H.
      eapply StronglySorted_app_l; exact H. }
    assert (Hnd : NoDup (map fst (List.filter p l))).
    { eapply Permutation_NoDup; [symmetry; apply Permutation_map; exact Hperm|].
      apply NoDup_nth_error. intros i j Hi Hij. rewrite map_length in Hi.
      rewrite !nth_error_map in Hij.
      destruct (nth_error (firstn m b) i) as [[s v]|] eqn:Ei; [|apply nth_error_None in Ei; lia].
      destruct (nth_error (firstn m b) j) as [[s' v']|] eqn:Ej; [|discriminate].
      cbn in Hij. inversion Hij; subst s'.
      rewrite nth_error_firstn in Ei, Ej.
      destruct (Nat.ltb_spec i m), (Nat.ltb_spec j m); try discriminate.
      eapply Hdist; eauto; unfold m in *; lia. }
    assert (Hin : forall x, In x (List.filter p l) -> exists k, (k < m)%nat /\ nth_error b k = Some x).
    { intros x Hx. apply (Permutation_in _ Hperm) in Hx. apply In_nth_error in Hx.
      destruct Hx as [k Hx]. exists k. rewrite nth_error_firstn in Hx.
      destruct (Nat.ltb_spec k m); [auto|discriminate]. }
    repeat split.
    - apply nth_error_In in H. destruct (Hin _ H) as (k' & Hk' & Hn). specialize (Hk _ _ _ Hn).
      destruct (Z.ltb_spec (Z.of_nat k') (Z.min (Z.of_nat n) C)); [lia|unfold m in *; lia].
    - apply nth_error_In in H. destruct (Hin _ H) as (k' & Hk' & Hn). specialize (Hk _ _ _ Hn).
      destruct (Z.ltb_spec (Z.of_nat k') (Z.min (Z.of_nat n) C)); [lia|unfold m in *; lia].
    - apply nth_error_In in H. destruct (Hin _ H) as (k' & Hk' & Hn). specialize (Hk _ _ _ Hn).
      destruct (Z.ltb_spec (Z.of_nat k') (Z.min (Z.of_nat n) C)); [tauto|unfold m in *; lia].
    - intros j k s v s' v' Hj Hk' Hjk.
      pose proof (StronglySorted_nth _ _ HsA j k _ _ Hjk Hj Hk') as Hle. unfold le_key in Hle; cbn in Hle.
      assert (s <> s'); [|lia]. intros <-.
      rewrite NoDup_nth_error in Hnd. specialize (Hnd j k).
      rewrite map_length, !nth_error_map, Hj, Hk' in Hnd.
      assert ((j < length (List.filter p l))%nat) by (apply nth_error_Some; congruence).
      specialize (Hnd H eq_refl). lia.
    - intros s v Hs.
      assert (Hm : (0 < m)%nat).
      { rewrite <- Hlen. apply nth_error_Some. congruence. }
      destruct (buf_nth C b 0 Hb) as (s0 & w0 & Hs0); [unfold m in *; lia|].
      assert (s0 = 0) by (eapply H0; eauto; unfold m in *; lia). subst s0.
      assert (Hi : In (0, w0) (List.filter p l)).
      { eapply Permutation_in; [symmetry; exact Hperm|]. apply (nth_error_In _ 0%nat).
        rewrite nth_error_firstn. destruct (Nat.ltb_spec 0 m); [auto|lia]. }
      apply In_nth_error in Hi. destruct Hi as [q Hq].
      assert (s <= 0).
      { destruct q; [rewrite Hs in Hq; inversion Hq; lia|].
        pose proof (StronglySorted_nth _ _ HsA 0 (S q) _ _ ltac:(lia) Hs Hq) as Hle.
        unfold le_key in Hle; cbn in Hle. lia. }
      apply nth_error_In in Hs. destruct (Hin _ Hs) as (k' & Hk' & Hn). specialize (Hk _ _ _ Hn).
      destruct (Z.ltb_spec (Z.of_nat k') (Z.min (Z.of_nat n) C)); [lia|unfold m in *; lia].
  Qed.

  (** Without sorting, when there is one checkpoint per step. *)
  Lemma unsorted_good n (b : list (Z * N)) : Z.of_nat n <= C -> buf_inv (Z.of_nat n) b ->
    length b = Z.to_nat C /\ good n (firstn (Nat.min n (Z.to_nat C)) b).
  Proof.
    intros Hn (Hb & Hk & Hdist & H0 & H5). split; [auto|].
    assert (Hx : forall k s v, nth_error (firstn (Nat.min n (Z.to_nat C)) b) k = Some (s, v) ->
                 (k < n)%nat /\ s = Z.of_nat k /\ v = fst (traj (Z.to_nat s))).
    { intros k s v Hx. rewrite nth_error_firstn in Hx.
      destruct (Nat.ltb_spec k (Nat.min n (Z.to_nat C))); [|discriminate].
      specialize (Hk _ _ _ Hx). specialize (H5 _ _ _ Hx Hn ltac:(lia)).
      destruct (Z.ltb_spec (Z.of_nat k) (Z.min (Z.of_nat n) C)); [|lia]. repeat split; auto; try lia. tauto. }
    repeat split.
    - specialize (Hx _ _ _ H). lia.
    - specialize (Hx _ _ _ H). lia.
    - specialize (Hx _ _ _ H). tauto.
    - intros. pose proof (Hx _ _ _ H). pose proof (Hx _ _ _ H1). lia.
    - intros. pose proof (Hx _ _ _ H). lia.
  Qed.

  Section Fwd.
  Variable cond : N -> Bf -> bool.
  Notation ckpt_fwd := (ckpt_fwd fN fB cond intmax fill C max_steps).
  Notation fstate := (fstate fN fB intmax fill C max_steps v0 b0).

  Lemma ckpt_fwd_correct n fuel :
    stops_at fN fB cond v0 b0 n -> within C max_steps n -> Z.of_nat n <= intmax -> (n < fuel)%nat ->
    exists res, ckpt_fwd fuel v0 b0 = Some (Z.of_nat n, fst (traj n), snd (traj n), res) /\
      length res = Z.to_nat C /\ good n (firstn (Nat.min n (Z.to_nat C)) res) /\
      (all_saved = true -> forall k s v, nth_error res k = Some (s, v) -> (k < n)%nat -> s = Z.of_nat k).
  Proof.
    intros [Hc Hs] Hin Him Hf. unfold Ckpt_Model.ckpt_fwd.
    assert (Hall := fwd_inv_all fN fB intmax fill C max_steps v0 b0 HC n Hin Him).
    assert (Hw : while fuel (fwd_cond cond) (fwd_body fN fB C max_steps)
                   (fwd_init intmax fill C v0 b0) = Some (fstate n)).
    { apply (while_steps _ _ fstate n); auto.
      - intros k Hk. split; [|reflexivity].
        destruct (Hall k ltac:(lia)) as (_ & Hv & _). unfold fwd_cond.
        specialize (Hc k Hk). rewrite <- Hv in Hc. exact Hc.
      - destruct (Hall n ltac:(lia)) as (_ & Hv & _). unfold fwd_cond.
        rewrite <- Hv in Hs. exact Hs. }
    rewrite Hw. destruct (Hall n ltac:(lia)) as (H1 & H2 & H3 & _).
    rewrite <- H2, H1.
    eexists. split; [reflexivity|].
    destruct all_saved eqn:Ea.
    - assert (Hn : Z.of_nat n <= C).
      { unfold within in Hin. unfold Ckpt_Model.all_saved in Ea. destruct max_steps; [|discriminate]. lia. }
      destruct (unsorted_good n _ Hn H3) as [? ?]. split; [auto|]. split; [auto|].
      intros _ k s v Hk Hlt. destruct H3 as (_ & _ & _ & _ & H5). eapply H5; eauto; lia.
    - destruct (firstn_good n _ Him H3) as [? ?]. split; [auto|]. split; [auto|]. discriminate.
  Qed.

  Lemma ckpt_fwd_fuel n fuel :
    (forall k, (k < n)%nat -> cond (fst (traj k)) (snd (traj k)) = true) ->
    within C max_steps n -> Z.of_nat n <= intmax -> (fuel <= n)%nat -> ckpt_fwd fuel v0 b0 = None.
  Proof.
    intros Hc Hin Him Hf. unfold Ckpt_Model.ckpt_fwd.
    assert (Hall := fwd_inv_all fN fB intmax fill C max_steps v0 b0 HC n Hin Him).
    assert (Hw : while fuel (fwd_cond cond) (fwd_body fN fB C max_steps)
                   (fwd_init intmax fill C v0 b0) = None).
    { apply (while_short _ _ fstate n); auto.
      intros k Hk. split; [|reflexivity].
      destruct (Hall k ltac:(lia)) as (_ & Hv & _). unfold fwd_cond.
      specialize (Hc k Hk). rewrite <- Hv in Hc. exact Hc. }
    rewrite Hw. reflexivity.
  Qed.

  End Fwd.

  (** * Backward pass *)
  Variable vjp : N -> Bf -> G -> P * G.
  Variable addP : P -> P -> P.
  Notation bwd_body := (bwd_body fN intmax fill C max_steps vjp addP).
  Notation backprop := (backprop fN fB vjp addP v0 b0).
  Notation calc_next := (calc_next intmax C).

  Variable n : nat.
  Hypothesis Hn : Z.of_nat n < intmax.
  Hypothesis Hin : within C max_steps n.
  Hypothesis Hwo : buffers_write_once fN fB vjp v0 b0 n.
  Notation bufs := (snd (traj n)).

  (** The first [index] entries of the buffer are in use. *)
  Definition stack_ok (index : Z) (res : list (Z * N)) : Prop :=
    length res = Z.to_nat C /\ 0 <= index <= C /\
    (forall k s v, nth_error res k = Some (s, v) -> Z.of_nat k < index ->
        0 <= s < Z.of_nat n /\ v = fst (traj (Z.to_nat s))) /\
    (forall j k s v s' v', nth_error res j = Some (s, v) -> nth_error res k = Some (s', v') ->
        (j < k)%nat -> Z.of_nat k < index -> s < s') /\
    (forall s v, nth_error res 0 = Some (s, v) -> 0 < index -> s = 0) /\
    (all_saved = true -> forall k s v, nth_error res k = Some (s, v) -> Z.of_nat k < index -> s = Z.of_nat k).

  Definition top (index : Z) (res : list (Z * N)) : Z :=
    fst (nth (Z.to_nat (index - 1)) res (intmax, fill)).

  (** [kept]: the most recent checkpoint has been loaded and will be used again;
      [popped]: it has been removed from the stack and a U-turn is next. *)
  Definition kept (c : bcarry (N:=N) (G:=G) (P:=P)) : Prop :=
    all_saved = false /\
    0 < b_index c /\ top (b_index c) (b_res c) <= b_sv c /\ top (b_index c) (b_res c) <= b_sg c - 2 /\
    b_sv c < b_next c /\ (b_next c < intmax -> b_next c <= b_sg c - 2 /\ b_index c < C).
  Definition popped (c : bcarry (N:=N) (G:=G) (P:=P)) : Prop :=
    b_sv c + 1 = b_sg c /\ (0 < b_index c -> top (b_index c) (b_res c) < b_sv c) /\
    (b_index c = 0 -> b_sv c = 0) /\ b_next c = intmax /\
    (all_saved = true -> b_index c = b_sv c).

  Definition bwd_inv (g : G) (p : P) (c : bcarry) : Prop :=
    0 <= b_sv c < b_sg c /\ b_sg c <= Z.of_nat n /\
    b_val c = fst (traj (Z.to_nat (b_sv c))) /\
    stack_ok (b_index c) (b_res c) /\
    (kept c \/ popped c) /\
    backprop (Z.to_nat (b_sg c)) (b_g c) (b_p c) = backprop n g p.

  Lemma top_spec index res : stack_ok index res -> 0 < index ->
    exists v, nth_error res (Z.to_nat (index - 1)) = Some (top index res, v) /\
              nth (clampi (length res) (Z.max (index - 1) 0)) res (intmax, fill) = (top index res, v) /\
              0 <= top index res < Z.of_nat n /\ v = fst (traj (Z.to_nat (top index res))).
  Proof.
    intros (Hl & Hi & Hv & _) H0.
    destruct (nth_error res (Z.to_nat (index - 1))) as [[s v]|] eqn:E; [|apply nth_error_None in E; lia].
    exists v. unfold top. rewrite clampi_in by lia. replace (Z.max (index - 1) 0) with (index - 1) by lia.
    rewrite (nth_error_nth _ _ _ E). cbn. destruct (Hv _ _ _ E); [lia|]. auto.
  Qed.

  Lemma calc_next_spec sv sg index : sv + 3 <= sg -> index < C -> sv < sg ->
    sv < calc_next sv sg index <= sg - 2.
  Proof.
    intros. unfold Ckpt_Model.calc_next.
    replace ((index =? C) || (sv + 1 =? sg) || (sv + 2 =? sg)) with false by lia.
    assert ((sg - sv) / 2 < sg - sv - 1).
    { apply Z.div_lt_upper_bound; lia. }
    assert (1 <= (sg - sv) / 2) by (apply Z.div_le_lower_bound; lia).
    destruct (_ <=? _); lia.
  Qed.

  Lemma calc_next_none sv sg index : (index = C \/ sv + 1 = sg \/ sv + 2 = sg) ->
    calc_next sv sg index = intmax.
  Proof.
    intros. unfold Ckpt_Model.calc_next.
    replace ((index =? C) || (sv + 1 =? sg) || (sv + 2 =? sg)) with true by lia. reflexivity.
  Qed.

  (** A shorter stack is fine. *)
  Lemma stack_ok_pop index index' res : stack_ok index res -> 0 <= index' <= index -> stack_ok index' res.
  Proof.
    intros (A1 & A2 & A3 & A4 & A5 & A6) Hle. unfold stack_ok. split; [auto|]. split; [lia|]. split; [|split; [|split]].
    - intros k s v Hk Hlt. apply (A3 k s v Hk); lia.
    - intros. eapply (A4 j k); eauto; lia.
    - intros. eapply A5; eauto; lia.
    - intros. eapply A6; eauto; lia.
  Qed.

  (** Loading the most recent checkpoint. *)
  Lemma load_inv sg index res g0 p0 g p :
    stack_ok index res -> 0 < index -> 0 < sg <= Z.of_nat n -> top index res < sg ->
    (all_saved = true -> top index res + 1 = sg) ->
    backprop (Z.to_nat sg) g p = backprop n g0 p0 ->
    let '(sv, val, index2) := load intmax fill C max_steps sg index res in
    bwd_inv g0 p0 {| b_sv := sv; b_sg := sg; b_next := calc_next sv sg index2; b_index := index2;
                 b_val := val; b_g := g; b_p := p; b_res := res |}.
  Proof.
    intros Hst Hi Hsg Htop Hall Hbp. unfold load.
    destruct (top_spec _ _ Hst Hi) as (v & Hn1 & Hn2 & Hr & Hv). rewrite Hn2.
    pose proof Hst as (A1 & A2 & A3 & A4 & A5 & A6). pose proof Hst as Hst'.
    unfold bwd_inv. cbn [b_sv b_sg b_next b_index b_val b_g b_p b_res].
    assert (Hpop : top index res + 1 = sg ->
                   stack_ok (index - 1) res /\
                   popped {| b_sv := top index res; b_sg := sg; b_next := calc_next (top index res) sg (index - 1);
                    b_index := index - 1; b_val := v; b_g := g; b_p := p; b_res := res |}).
    { intros Heq. split; [eapply stack_ok_pop; eauto; lia|].
      unfold popped. cbn [b_sv b_sg b_next b_index b_val b_g b_p b_res].
      split; [auto|]. split; [|split; [|split]].
      - intros Hpos. assert (Hst2 : stack_ok (index - 1) res) by (eapply stack_ok_pop; eauto; lia).
        destruct (top_spec _ _ Hst2 Hpos) as (v2 & Hn3 & _).
        eapply A4; [exact Hn3|exact Hn1|lia|lia].
      - intros H1. replace (index - 1) with 0 in Hn1 by lia. eapply A5; eauto.
      - apply calc_next_none. auto.
      - intros Ha. specialize (A6 Ha _ _ _ Hn1 ltac:(lia)). lia. }
    replace (Z.max (index - 1) 0) with (index - 1) by lia.
    destruct all_saved eqn:Ea.
    - destruct (Hpop (Hall eq_refl)) as [P1 P2].
      split; [lia|]. split; [lia|]. split; [auto|]. split; [auto|]. split; [right; auto|auto].
    - destruct (Z.eqb_spec (top index res + 1) sg) as [Heq|Hne].
      + destruct (Hpop Heq) as [P1 P2].
        split; [lia|]. split; [lia|]. split; [auto|]. split; [auto|]. split; [right; auto|auto].
      + split; [lia|]. split; [lia|]. split; [auto|]. split; [exact Hst'|]. split; [left|auto].
        unfold kept. cbn [b_sv b_sg b_next b_index b_val b_g b_p b_res].
        split; [auto|]. split; [auto|]. split; [lia|]. split; [lia|].
        destruct (Z.eq_dec index C) as [Hc|Hc].
        { rewrite calc_next_none by auto. split; lia. }
        destruct (Z.eq_dec (top index res + 2) sg) as [Hc2|Hc2].
        { rewrite calc_next_none by auto. split; lia. }
        pose proof (calc_next_spec (top index res) sg index). lia.
  Qed.

  (** Saving a checkpoint. *)
  Lemma save_inv g p c : bwd_inv g p c -> b_sv c <> b_next c -> maybe_save intmax C c = c.
  Proof.
    intros _ Hne. unfold maybe_save. destruct (Z.eqb_spec (b_sv c) (b_next c)); [congruence|].
    cbn. destruct c; reflexivity.
  Qed.

  Lemma backprop_u_turn sg sv v g p :
    0 <= sv -> sv + 1 = sg -> sg <= Z.of_nat n -> v = fst (traj (Z.to_nat sv)) ->
    backprop (Z.to_nat sg) g p =
    backprop (Z.to_nat (sg - 1)) (snd (vjp v bufs g)) (addP p (fst (vjp v bufs g))).
  Proof.
    intros H0 H1 H2 ->. replace (Z.to_nat sg) with (S (Z.to_nat sv)) by lia.
    replace (sg - 1) with sv by lia. cbn [Ckpt_Spec.backprop].
    destruct (Hwo (Z.to_nat sv) ltac:(lia)) as [_ Hv]. rewrite Hv. reflexivity.
  Qed.

  Definition measure (c : bcarry (N:=N) (G:=G) (P:=P)) : Z := b_sg c * (Z.of_nat n + 1) - b_sv c.

  Lemma bwd_step g p c : bwd_inv g p c ->
    (0 < b_sg (bwd_body bufs c) /\ bwd_inv g p (bwd_body bufs c) /\
       measure (bwd_body bufs c) < measure c) \/
    (b_sg (bwd_body bufs c) = 0 /\
     (b_g (bwd_body bufs c), b_p (bwd_body bufs c)) = backprop n g p).
  Proof.
    intros (Hsv & Hsg & Hval & Hst & Hkp & Hbp).
    unfold Ckpt_Model.bwd_body.
    set (ut := if all_saved then true else b_sv c + 1 =? b_sg c).
    assert (Hut : ut = true <-> b_sv c + 1 = b_sg c).
    { unfold ut. destruct all_saved eqn:Ea; [|lia].
      split; auto. intros _. destruct Hkp as [[Hk _]|[Hp _]]; [congruence|auto]. }
    destruct ut eqn:Eut.
    - (* U-turn *)
      assert (Hs1 : b_sv c + 1 = b_sg c) by (apply Hut; auto). clear Hut.
      rewrite (backprop_u_turn _ (b_sv c) (b_val c)) in Hbp by (auto; lia).
      destruct (vjp (b_val c) bufs (b_g c)) as [pu g2] eqn:Ev. cbn [fst snd] in Hbp.
      (* facts about the remaining stack *)
      assert (Hstk : b_index c = 0 /\ b_sg c = 1 \/
                     0 < b_index c /\ top (b_index c) (b_res c) < b_sg c - 1 /\
                     (all_saved = true -> top (b_index c) (b_res c) + 1 = b_sg c - 1)).
      { pose proof Hst as (A1 & A2 & A3 & A4 & A5 & A6).
        destruct Hkp as [(K0 & K1 & K2 & K3 & _)|(P1 & P2 & P3 & P4 & P5)].
        - right. split; [auto|]. split; [lia|]. congruence.
        - destruct (Z.eq_dec (b_index c) 0) as [Hz|Hz]; [left; specialize (P3 Hz); lia|right].
          split; [lia|]. split; [specialize (P2 ltac:(lia)); lia|].
          intros Ha. specialize (P5 Ha).
          destruct (top_spec _ _ Hst ltac:(lia)) as (v & Hn1 & _).
          specialize (A6 Ha _ _ _ Hn1 ltac:(lia)). lia. }
      destruct Hstk as [[Hz Hz']|(Hi & Ht & Hta)].
      + (* finished *)
        right. destruct (load intmax fill C max_steps (b_sg c - 1) (b_index c) (b_res c)) as [[sv2 val2] ix2].
        rewrite Hz' in *. replace (1 - 1) with 0 in * by lia. cbn in Hbp.
        destruct all_saved; [|unfold maybe_save]; cbn; auto.
      + left. destruct (top_spec _ _ Hst Hi) as (_ & _ & _ & Hr & _).
        pose proof (load_inv (b_sg c - 1) (b_index c) (b_res c) g p g2 (addP (b_p c) pu) Hst Hi
                      ltac:(lia) Ht Hta Hbp) as HL.
        destruct (load intmax fill C max_steps (b_sg c - 1) (b_index c) (b_res c)) as [[sv2 val2] ix2].
        set (c2 := {| b_sv := sv2 |}) in *.
        assert (Hne : b_sv c2 <> b_next c2).
        { destruct HL as (L1 & L2 & _ & _ & [L3|L3] & _).
          - destruct L3 as (_ & _ & _ & _ & L & _). lia.
          - destruct L3 as (_ & _ & _ & L & _). lia. }
        replace (if all_saved then c2 else maybe_save intmax C c2) with c2
          by (destruct all_saved; [auto|erewrite save_inv; eauto]).
        split; [cbn; destruct HL as (L1 & _); cbn in L1; lia|]. split; [exact HL|].
        destruct HL as (L1 & _). unfold measure. cbn in *. nia.
    - (* forward *)
      assert (Hs1 : b_sv c + 1 <> b_sg c) by (intros Hx; apply Hut in Hx; discriminate). clear Hut.
      destruct Hkp as [(K0 & K1 & K2 & K3 & K4 & K5)|(P1 & _)]; [|congruence].
      rewrite K0. left.
      assert (Hval2 : fN (b_val c) bufs = fst (traj (Z.to_nat (b_sv c + 1)))).
      { replace (Z.to_nat (b_sv c + 1)) with (S (Z.to_nat (b_sv c))) by lia. rewrite Hval.
        destruct (Hwo (Z.to_nat (b_sv c)) ltac:(lia)) as [Hf _]. rewrite Hf. reflexivity. }
      unfold maybe_save. cbn [b_sv b_sg b_next b_index b_val b_g b_p b_res].
      destruct (Z.eqb_spec (b_sv c + 1) (b_next c)) as [He|Hne].
      + (* save a checkpoint *)
        destruct K5 as [K5 K6]; [lia|].
        pose proof Hst as (A1 & A2 & A3 & A4 & A5 & A6).
        assert (Hix : clampi (length (b_res c)) (b_index c) = Z.to_nat (b_index c)) by (apply clampi_in; lia).
        assert (Htop : top (b_index c + 1) (upd (b_res c) (Z.to_nat (b_index c)) (b_sv c + 1, fN (b_val c) bufs)) = b_sv c + 1).
        { unfold top. replace (b_index c + 1 - 1) with (b_index c) by lia.
          erewrite nth_error_nth; [|apply nth_error_upd_same; lia]. reflexivity. }
        split; [lia|]. split; [|unfold measure; cbn; lia].
        unfold bwd_inv, maybe_update. cbn [b_sv b_sg b_next b_index b_val b_g b_p b_res].
        rewrite Hix.
        split; [lia|]. split; [lia|]. split; [auto|]. split; [|split; [|auto]].
        * unfold stack_ok. rewrite upd_length. split; [auto|]. split; [lia|].
          destruct (top_spec _ _ Hst K1) as (tv & Hn1 & _ & Hr & _).
          split; [|split; [|split]].
          -- intros k s v Hk Hlt. rewrite nth_error_upd in Hk.
             destruct (Nat.eqb_spec k (Z.to_nat (b_index c))).
             ++ destruct (Nat.ltb _ _); inversion Hk; subst s v. split; [lia|auto].
             ++ eapply A3; eauto; lia.
          -- intros j k s v s' v' Hj Hk Hjk Hlt. rewrite nth_error_upd in Hj. rewrite nth_error_upd in Hk.
             destruct (Nat.eqb_spec j (Z.to_nat (b_index c))); [lia|].
             destruct (Nat.eqb_spec k (Z.to_nat (b_index c))).
             ++ destruct (Nat.ltb _ _); inversion Hk; subst s' v'.
                assert (s <= top (b_index c) (b_res c)); [|lia].
                destruct (Nat.eq_dec j (Z.to_nat (b_index c - 1))) as [->|Hj'].
                ** rewrite Hn1 in Hj. inversion Hj. lia.
                ** assert (s < top (b_index c) (b_res c)); [|lia].
                   eapply (A4 j (Z.to_nat (b_index c - 1))); eauto; lia.
             ++ eapply (A4 j k); eauto; lia.
          -- intros s v Hk Hlt. rewrite nth_error_upd_other in Hk by lia. eapply A5; eauto.
          -- intros; congruence.
        * left. unfold kept. cbn [b_sv b_sg b_next b_index b_val b_g b_p b_res].
          rewrite Htop. split; [auto|]. split; [lia|]. split; [lia|]. split; [lia|].
          destruct (Z.eq_dec (b_index c + 1) C) as [Hc|Hc].
          { rewrite calc_next_none by auto. split; lia. }
          destruct (Z.eq_dec (b_sv c + 1 + 2) (b_sg c)) as [Hc2|Hc2].
          { rewrite calc_next_none by auto. split; lia. }
          pose proof (calc_next_spec (b_sv c + 1) (b_sg c) (b_index c + 1)). lia.
      + split; [lia|]. split; [|unfold measure; cbn; lia].
        unfold bwd_inv, maybe_update. cbn [b_sv b_sg b_next b_index b_val b_g b_p b_res].
        split; [lia|]. split; [lia|]. split; [auto|]. split; [auto|]. split; [|auto].
        left. unfold kept. cbn [b_sv b_sg b_next b_index b_val b_g b_p b_res].
        split; [auto|]. split; [auto|]. split; [lia|]. split; [lia|]. split; [lia|auto].
  Qed.

  Lemma bwd_loop g p : forall m c fuel, bwd_inv g p c -> measure c <= Z.of_nat m -> (m < fuel)%nat ->
    exists c', while fuel bwd_cond (bwd_body bufs) c = Some c' /\ (b_g c', b_p c') = backprop n g p.
  Proof.
    induction m; intros c fuel Hi Hm Hf.
    - destruct Hi as (H1 & H2 & _). unfold measure in Hm. nia.
    - destruct fuel; [lia|]. cbn [while].
      assert (Hsg : bwd_cond c = true) by (destruct Hi as (H1 & _); unfold bwd_cond; lia).
      rewrite Hsg. destruct (bwd_step g p c Hi) as [(H1 & H2 & H3)|[H1 H2]].
      + apply IHm; auto; lia.
      + destruct fuel.
        * destruct Hi as (I1 & I2 & _). unfold measure in Hm. nia.
        * cbn [while]. unfold bwd_cond at 1. rewrite H1. cbn. eauto.
  Qed.

  Lemma bwd_init_inv res g p :
    length res = Z.to_nat C ->
    good n (firstn (Nat.min n (Z.to_nat C)) res) ->
    (all_saved = true -> forall k s v, nth_error res k = Some (s, v) -> (k < n)%nat -> s = Z.of_nat k) ->
    n <> O ->
    bwd_inv g p (bwd_init intmax fill C max_steps (Z.of_nat n) g p res).
  Proof.
    intros Hl (G1 & G2 & G3) Ha Hz.
    assert (Hst : stack_ok (Z.min (Z.of_nat n) C) res).
    { assert (Hfn : forall k s v, nth_error res k = Some (s, v) -> Z.of_nat k < Z.min (Z.of_nat n) C ->
                nth_error (firstn (Nat.min n (Z.to_nat C)) res) k = Some (s, v)).
      { intros. rewrite nth_error_firstn. destruct (Nat.ltb_spec k (Nat.min n (Z.to_nat C))); [auto|lia]. }
      unfold stack_ok. split; [auto|]. split; [lia|]. split; [|split; [|split]].
      - intros. eapply G1; eauto.
      - intros. eapply (G2 j k); eauto. eapply Hfn; eauto; lia.
      - intros. eapply G3; eauto; apply Hfn; eauto.
      - intros Hs k s v Hk Hlt. eapply Ha; eauto; lia. }
    assert (Hi : 0 < Z.min (Z.of_nat n) C) by lia.
    destruct (top_spec _ _ Hst Hi) as (v & Hn1 & Hn2 & Hr & Hv).
    unfold bwd_init.
      assert (Ht : all_saved = true -> top (Z.min (Z.of_nat n) C) res + 1 = Z.of_nat n).
      { intros Hs. assert (HnC : Z.of_nat n <= C).
        { clear - Hin Hs. unfold within in Hin. unfold Ckpt_Model.all_saved in Hs. destruct max_steps; [|discriminate]. lia. }
        rewrite (Ha Hs _ _ _ Hn1 ltac:(lia)). lia. }
      pose proof (load_inv (Z.of_nat n) _ res g p g p Hst Hi ltac:(lia) ltac:(lia) Ht) as HL.
      rewrite Nat2Z.id in HL. specialize (HL eq_refl).
      destruct (load _ _ _ _ _ _ _) as [[sv val] ix]. exact HL.
  Qed.

  Lemma ckpt_bwd_correct res g p fuel :
    length res = Z.to_nat C ->
    good n (firstn (Nat.min n (Z.to_nat C)) res) ->
    (all_saved = true -> forall k s v, nth_error res k = Some (s, v) -> (k < n)%nat -> s = Z.of_nat k) ->
    (n * (n + 1) + 1 < fuel)%nat ->
    ckpt_bwd fN intmax fill C max_steps vjp addP fuel (Z.of_nat n) bufs g p res
    = Some (backprop n g p).
  Proof.
    intros Hl (G1 & G2 & G3) Ha Hf. unfold ckpt_bwd.
    destruct (Nat.eq_dec n 0) as [Hz|Hz].
    { unfold bwd_init. rewrite Hz. destruct (load _ _ _ _ _ _ _) as [[sv val] ix].
      destruct fuel; [lia|]. cbn. reflexivity. }
    pose proof (bwd_init_inv res g p Hl (conj G1 (conj G2 G3)) Ha Hz) as HI.
    destruct (bwd_loop g p (n * (n + 1)) _ fuel HI) as (c' & Hw & Hg); [|lia|].
    { destruct HI as (I1 & I2 & _). unfold measure. nia. }
    rewrite Hw, Hg. reflexivity.
  Qed.
End Proofs2.
