(** C47: [assert_max_traces] counts exactly. *)
From Verif Require Import Traces_Model.

Section Spec.
  Context {S : Type} (seq_ : S -> S -> bool).

  (** ** Specification, over the history of events *)

  Definition is_new (e : event S) : bool := match e with ENew _ => true | _ => false end.
  Definition is_call (tag : nat) (e : event S) : bool :=
    match e with ECall t _ => Nat.eqb t tag | _ => false end.

  (** The wrappers made so far, in order; the [i]-th has tag [i]. *)
  Definition maxima (h : list (event S)) : list (option nat) :=
    concat (map (fun e => match e with ENew m => [m] | _ => [] end) h).

  (** Every call is of a wrapper made before. *)
  Inductive sound : list (event S) -> Prop :=
  | so_nil : sound []
  | so_new : forall h m, sound h -> sound (h ++ [ENew m])
  | so_call : forall h tag b, sound h -> tag < length (maxima h) -> sound (h ++ [ECall tag b]).

  Definition count (tag : nat) (h : list (event S)) : nat :=
    length (List.filter (is_call tag) h).

  (** The structures passed for parameter [name] in those earlier calls of [tag] that ran. *)
  Inductive was_seen : list (event S) -> nat -> nat -> S -> Prop :=
  | ws_here : forall h tag a name s,
      (forall m, nth_error (maxima h) tag = Some (Some m) -> count tag h < m) ->
      In (name, s) a -> was_seen (h ++ [ECall tag (Some a)]) tag name s
  | ws_later : forall h e tag name s, was_seen h tag name s -> was_seen (h ++ [e]) tag name s.

  (** [name] is the first parameter whose structure is unlike all those seen before. *)
  Definition blamed (h : list (event S)) (tag : nat) (a : @args S) (r : option nat) : Prop :=
    match r with
    | Some name => exists pre s post, a = pre ++ (name, s) :: post /\
        (forall s', was_seen h tag name s' -> seq_ s s' = false) /\
        (forall n' t, In (n', t) pre -> exists s', was_seen h tag n' s' /\ seq_ t s' = true)
    | None => forall n' t, In (n', t) a -> exists s', was_seen h tag n' s' /\ seq_ t s' = true
    end.

  (** ** Proofs *)

  Lemma after_snoc h e : after seq_ (h ++ [e]) = step seq_ (after seq_ h) e.
  Proof. unfold after. rewrite fold_left_app. reflexivity. Qed.

  Lemma record_fields tag a : forall w : world S,
    w_next (record tag a w) = w_next w /\ w_max (record tag a w) = w_max w /\
    w_traces (record tag a w) = w_traces w.
  Proof.
    induction a as [|[n s] a IH]; intros w; simpl; [auto|].
    destruct (IH (mk_world (w_next w) (w_max w) (w_traces w)
             (upd (w_seen w) tag (upd (w_seen w tag) n (Some (seen_structs w tag n ++ [s]))))))
      as (-> & -> & ->). auto.
  Qed.

  Lemma upd_eq {X} (f : nat -> X) i v : upd f i v i = v.
  Proof. unfold upd. rewrite Nat.eqb_refl. reflexivity. Qed.
  Lemma upd_neq {X} (f : nat -> X) i j v : j <> i -> upd f i v j = f j.
  Proof. unfold upd. intros H. destruct (Nat.eqb_spec j i); congruence. Qed.

  Lemma record_seen tag a : forall (w : world S) t n s,
    In s (seen_structs (record tag a w) t n) <->
    In s (seen_structs w t n) \/ (t = tag /\ In (n, s) a).
  Proof.
    induction a as [|[n0 s0] a IH]; intros w t n s; simpl; [tauto|].
    rewrite IH. unfold seen_structs at 1; simpl.
    destruct (Nat.eq_dec t tag) as [->|Ht].
    - rewrite upd_eq. destruct (Nat.eq_dec n n0) as [->|Hn].
      + rewrite upd_eq, in_app_iff. simpl.
        split.
        * intros [[H|[H|[]]]|[_ H]]; [left; exact H|subst; right; split; [reflexivity|left; reflexivity]|tauto].
        * intros [H|[_ [H|H]]]; [tauto|injection H as ->; tauto|tauto].
      + rewrite upd_neq by exact Hn. fold (seen_structs w tag n).
        split; [tauto|]. intros [H|[_ [H|H]]]; [tauto|injection H; congruence|tauto].
    - rewrite upd_neq by exact Ht. fold (seen_structs w t n). tauto.
  Qed.

  Lemma maxima_snoc h e : maxima (h ++ [e]) = maxima h ++ match e with ENew m => [m] | _ => [] end.
  Proof. unfold maxima. rewrite map_app, concat_app; simpl. rewrite app_nil_r. reflexivity. Qed.
  Lemma count_snoc tag h e :
    count tag (h ++ [e]) = count tag h + if is_call tag e then 1 else 0.
  Proof. unfold count. rewrite filter_app, app_length. simpl. destruct (is_call tag e); reflexivity. Qed.

  Lemma snoc_inj {X} (h h' : list X) e e' : h ++ [e] = h' ++ [e'] -> h = h' /\ e = e'.
  Proof. apply app_inj_tail. Qed.

  Lemma was_seen_old h : sound h -> forall tag n s, was_seen h tag n s -> tag < length (maxima h).
  Proof.
    induction 1 as [|h m Hs IH|h tag b Hs IH Ht]; intros t n s H.
    - inversion H as [h0 ? ? ? ? ? ? E|h0 ? ? ? ? ? E]; destruct h0; discriminate.
    - rewrite maxima_snoc, app_length. inversion H as [h0 ? ? ? ? ? ? E|h0 ? ? ? ? Hw E]; subst;
        apply snoc_inj in E as [-> E]; [discriminate|]. apply IH in Hw. lia.
    - rewrite maxima_snoc, app_length; simpl. inversion H as [h0 ? ? ? ? ? ? E|h0 ? ? ? ? Hw E]; subst;
        apply snoc_inj in E as [-> E].
      + injection E as -> _. lia.
      + apply IH in Hw. lia.
  Qed.

  Lemma count_old h : sound h -> forall tag, length (maxima h) <= tag -> count tag h = 0.
  Proof.
    induction 1 as [|h m Hs IH|h tag b Hs IH Ht]; intros t H; [reflexivity| |];
      rewrite maxima_snoc, app_length in H; rewrite count_snoc; simpl in *.
    - rewrite IH by lia. reflexivity.
    - rewrite IH by lia. destruct (Nat.eqb_spec tag t); [lia|reflexivity].
  Qed.

  Lemma invariant h : sound h ->
    let w := after seq_ h in
    w_next w = length (maxima h) /\
    (forall tag, tag < length (maxima h) -> nth_error (maxima h) tag = Some (w_max w tag)) /\
    (forall tag, tag < length (maxima h) -> w_traces w tag = count tag h) /\
    (forall tag n s, tag < length (maxima h) ->
       (In s (seen_structs w tag n) <-> was_seen h tag n s)).
  Proof.
    induction 1 as [|h m Hs IH|h tag b Hs IH Ht]; cbn zeta in *.
    - split; [reflexivity|]. split; [|split]; intros; simpl in *; lia.
    - destruct IH as (I1 & I2 & I3 & I4). rewrite after_snoc, maxima_snoc, app_length. simpl.
      split; [lia|]. rewrite I1. split; [|split].
      + intros t Ht. destruct (Nat.eq_dec t (length (maxima h))) as [->|Hn].
        * rewrite upd_eq, nth_error_app2, Nat.sub_diag by lia. reflexivity.
        * rewrite upd_neq by exact Hn. rewrite nth_error_app1 by lia. apply I2; lia.
      + intros t Ht. rewrite count_snoc; simpl.
        destruct (Nat.eq_dec t (length (maxima h))) as [->|Hn].
        * rewrite upd_eq, count_old; auto.
        * rewrite upd_neq by exact Hn. rewrite I3 by lia. lia.
      + intros t n s Ht. unfold seen_structs at 1; simpl.
        assert (E : was_seen (h ++ [ENew m]) t n s <-> was_seen h t n s).
        { split; [|apply ws_later].
          intros H. inversion H as [h0 ? ? ? ? ? ? E|h0 ? ? ? ? Hw E]; subst;
            apply snoc_inj in E as [-> E]; [discriminate|exact Hw]. }
        rewrite E. destruct (Nat.eq_dec t (length (maxima h))) as [->|Hn].
        * rewrite upd_eq. split; [intros []|]. intros Hw. apply was_seen_old in Hw; auto. lia.
        * rewrite upd_neq by exact Hn. apply I4; lia.
    - destruct IH as (I1 & I2 & I3 & I4). rewrite after_snoc, maxima_snoc, app_nil_r. simpl.
      set (w1 := mk_world (w_next (after seq_ h)) (w_max (after seq_ h))
                   (upd (w_traces (after seq_ h)) tag (Datatypes.S (w_traces (after seq_ h) tag)))
                   (w_seen (after seq_ h))).
      assert (C1 : forall t, t < length (maxima h) -> w_traces w1 t = count t (h ++ [ECall tag b])).
      { intros t Hlt. rewrite count_snoc; simpl. rewrite Nat.eqb_sym.
        destruct (Nat.eqb_spec t tag) as [->|Hn]; [rewrite upd_eq, I3 by lia; lia|].
        rewrite upd_neq by exact Hn. rewrite I3 by lia. lia. }
      unfold call. fold w1.
      destruct b as [a|].
      2:{ simpl. split; [exact I1|]. split; [exact I2|]. split; [exact C1|].
          intros t n s Hlt. change (seen_structs w1 t n) with (seen_structs (after seq_ h) t n).
          rewrite I4 by exact Hlt. split; [apply ws_later|].
          intros H. inversion H as [h0 ? ? ? ? ? ? E|h0 ? ? ? ? Hw E]; subst;
            apply snoc_inj in E as [-> E]; [discriminate|exact Hw]. }
      set (over := match w_max (after seq_ h) tag with Some m => Nat.ltb m (Datatypes.S (w_traces (after seq_ h) tag))
                   | None => false end).
      assert (HO : over = false <->
                   forall m, nth_error (maxima h) tag = Some (Some m) -> count tag h < m).
      { unfold over. rewrite (I2 tag Ht), (I3 tag Ht). destruct (w_max (after seq_ h) tag) as [m|].
        - destruct (Nat.ltb_spec m (Datatypes.S (count tag h))); split; intros Hx; try discriminate; auto.
          + specialize (Hx m eq_refl). lia.
          + intros m' Hm'. injection Hm' as <-. lia.
        - split; [intros _ m Hm; discriminate|reflexivity]. }
      destruct over eqn:EO; simpl.
      + split; [exact I1|]. split; [exact I2|]. split; [exact C1|].
        intros t n s Hlt. change (seen_structs w1 t n) with (seen_structs (after seq_ h) t n).
        rewrite I4 by exact Hlt. split; [apply ws_later|].
        intros H. inversion H as [h0 t0 a0 n0 s0 Hc Hin E|h0 e0 t0 n0 s0 Hw E]; subst;
          apply snoc_inj in E as [-> E]; [|exact Hw].
        injection E as -> ->. apply HO in Hc. discriminate.
      + destruct (record_fields tag a w1) as (-> & -> & ->).
        split; [exact I1|]. split; [exact I2|]. split; [exact C1|].
        intros t n s Hlt. rewrite record_seen.
        change (seen_structs w1 t n) with (seen_structs (after seq_ h) t n).
        rewrite I4 by exact Hlt. split.
        * intros [Hw|[-> Hin]]; [apply ws_later; exact Hw|]. apply ws_here; [|exact Hin].
          apply HO; reflexivity.
        * intros H. inversion H as [h0 t0 a0 n0 s0 Hc Hin E|h0 e0 t0 n0 s0 Hw E]; subst;
            apply snoc_inj in E as [-> E]; [|left; exact Hw].
          injection E as -> ->. right; auto.
  Qed.

  Lemma responsible_spec w tag (a : @args S) :
    match responsible seq_ w tag a with
    | Some name => exists pre s post, a = pre ++ (name, s) :: post /\
        (forall s', In s' (seen_structs w tag name) -> seq_ s s' = false) /\
        (forall n' t, In (n', t) pre -> exists s', In s' (seen_structs w tag n') /\ seq_ t s' = true)
    | None => forall n' t, In (n', t) a -> exists s', In s' (seen_structs w tag n') /\ seq_ t s' = true
    end.
  Proof.
    induction a as [|[n s] a IH]; simpl; [intros ? ? []|].
    destruct (existsb (seq_ s) (seen_structs w tag n)) eqn:E.
    - apply existsb_exists in E as (s1 & Hs1 & Hs2).
      destruct (responsible seq_ w tag a) as [nm|].
      + destruct IH as (pre & s' & post & -> & H1 & H2).
        exists ((n, s) :: pre), s', post. split; [reflexivity|]. split; [exact H1|].
        intros n' t [H|H]; [injection H as -> ->; eauto|eauto].
      + intros n' t [H|H]; [injection H as -> ->; eauto|eauto].
    - exists [], s, a. split; [reflexivity|]. split; [|intros ? ? []].
      intros s' Hs'. destruct (seq_ s s') eqn:E'; [|reflexivity].
      exfalso. assert (existsb (seq_ s) (seen_structs w tag n) = true); [|congruence].
      apply existsb_exists; eauto.
  Qed.

  (** ** C47 *)

  (** The call after history [h] fails exactly when it is one too many; a call whose
      arguments do not fit the signature is an error of its own. *)
  Theorem C47_raises h tag m b :
    sound h -> nth_error (maxima h) tag = Some m ->
    let r := fst (call seq_ tag b (after seq_ h)) in
    match b with
    | None => r = BindError
    | Some a =>
        (forall n, m = Some n -> n <= count tag h ->
           exists who, r = TooMany (count tag h + 1) who /\ blamed h tag a who) /\
        ((forall n, m = Some n -> count tag h < n) -> r = Runs)
    end.
  Proof.
    intros Hs Hm. cbn zeta. destruct (invariant h Hs) as (I1 & I2 & I3 & I4).
    assert (Ht : tag < length (maxima h)) by (eapply nth_error_lt; exact Hm).
    rewrite (I2 _ Ht) in Hm. injection Hm as Hm. unfold call. rewrite Hm, (I3 _ Ht).
    destruct b as [a|]; [|reflexivity]. split.
    - intros n -> Hn. destruct (Nat.ltb_spec n (Datatypes.S (count tag h))); [|lia]. simpl.
      eexists. split; [rewrite Nat.add_1_r; reflexivity|].
      set (w1 := mk_world _ _ _ _).
      assert (I5 : forall n s, In s (seen_structs w1 tag n) <-> was_seen h tag n s).
      { intros n' s. exact (I4 tag n' s Ht). }
      pose proof (responsible_spec w1 tag a) as HR. unfold blamed.
      destruct (responsible seq_ w1 tag a) as [nm|].
      + destruct HR as (pre & s & post & -> & H1 & H2). exists pre, s, post.
        split; [reflexivity|]. split.
        * intros s' Hs'. apply H1, I5; exact Hs'.
        * intros n' t Hin. destruct (H2 n' t Hin) as (s' & Hs' & Hq). exists s'. rewrite <- I5; auto.
      + intros n' t Hin. destruct (HR n' t Hin) as (s' & Hs' & Hq). exists s'. rewrite <- I5; auto.
    - intros H. destruct m as [n|]; [|reflexivity]. specialize (H n eq_refl).
      destruct (Nat.ltb_spec n (Datatypes.S (count tag h))); [lia|reflexivity].
  Qed.

  (** [get_num_traces] reports the number of calls so far, through any wrappers. *)
  Inductive finds : callable -> nat -> Prop :=
  | fi_here : forall tag, finds (Wrapper tag) tag
  | fi_wraps : forall f tag, finds f tag -> finds (Wraps f) tag.

  Theorem C47_num_traces h f :
    sound h ->
    (forall tag, finds f tag -> tag < length (maxima h) ->
       get_num_traces (after seq_ h) f = Ok (count tag h)) /\
    ((forall tag, ~ finds f tag) -> get_num_traces (after seq_ h) f = Err ValueError).
  Proof.
    intros Hs. destruct (invariant h Hs) as (_ & _ & I3 & _). unfold get_num_traces. split.
    - intros tag Hf Ht. induction Hf as [tag|f tag Hf IH]; simpl.
      + rewrite I3 by exact Ht. reflexivity.
      + apply IH; exact Ht.
    - intros Hn. induction f as [tag|f IH|]; simpl.
      + exfalso. apply (Hn tag). constructor.
      + apply IH. intros tag Hf. apply (Hn tag). constructor; exact Hf.
      + reflexivity.
  Qed.
End Spec.
Print Assumptions C47_raises.
Print Assumptions C47_num_traces.

(** A call that fails to bind counts as a trace, so a function that may be traced once
    raises on its first valid call if a call with wrong arguments came before. *)
Theorem C47_bad_call_counts :
  fst (call Nat.eqb 0 (Some [(5, 1)]) (after Nat.eqb [ENew (Some 1); ECall 0 None]))
  = TooMany 2 (Some 5).
Proof. reflexivity. Qed.
Print Assumptions C47_bad_call_counts.

(** Non-vacuity: at most two traces; the third call changes the second argument. *)
Example traces_example :
  let h := [ENew (Some 2); ECall 0 (Some [(1, 10); (2, 20)]); ECall 0 (Some [(1, 11); (2, 20)])] in
  sound h /\
  fst (call Nat.eqb 0 (Some [(1, 10); (2, 21)]) (after Nat.eqb h)) = TooMany 3 (Some 2) /\
  get_num_traces (after Nat.eqb h) (Wraps (Wrapper 0)) = Ok 2.
Proof.
  split; [|split; reflexivity].
  apply (so_call [ENew (Some 2); ECall 0 (Some [(1, 10); (2, 20)])] 0).
  - apply (so_call [ENew (Some 2)] 0); [apply (so_new []); constructor|unfold maxima; simpl; lia].
  - unfold maxima; simpl; lia.
Qed.
