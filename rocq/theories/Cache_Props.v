(** C48: [compile_cache] is a memo table. *)
From Verif Require Import Cache_Model.

(** ** Specification *)

(** The events that make the cache forget the entries of an owner. *)
Definition forgets {K} (o : ckey) (e : cevent K) : bool :=
  match e with
  | CCall _ _ => false
  | CClear => true
  | CGone id => ckey_eqb o (CFun id)
  | CDelete u => match strip u with UFn id true _ => ckey_eqb o (CFun id) | _ => false end
  end.

(** Whose entries a call uses: those of the function object itself if it is a plain function; all other
    callables share one table. *)
Definition plain_function (u : ufn) : option nat :=
  match u with UFn id isfun _ | UWraps id isfun _ => if isfun then Some id else None | UPartial _ _ => None end.
Theorem C48_owner : forall u u', owner u = owner u' <-> plain_function u = plain_function u'.
Proof.
  intros [i [|] n|i [|] v|i v] [j [|] m|j [|] w|j w]; cbn; split; congruence.
Qed.
(** The names are those of the innermost function. *)
Inductive innermost : ufn -> nat -> Prop :=
| in_fn id isfun n : innermost (UFn id isfun n) n
| in_wraps id isfun v n : innermost v n -> innermost (UWraps id isfun v) n
| in_partial id v n : innermost v n -> innermost (UPartial id v) n.
Theorem C48_names : forall u, innermost u (get_fn_names u).
Proof. unfold get_fn_names. induction u as [i b n|i b v IH|i v IH]; cbn [strip]; constructor; exact IH. Qed.

Section Props.
  Context {K V : Type} (keq : K -> K -> bool) (hashable : K -> bool).
  Variable g : nat -> nat -> K -> res V.
  Hypothesis keq_refl : forall k, keq k k = true.
  Hypothesis keq_sym : forall k l, keq k l = true -> keq l k = true.
  Hypothesis keq_trans : forall k l m, keq k l = true -> keq l m = true -> keq k m = true.

  Definition after := cache_after keq hashable g.
  (** The result of a call after history [h]; the number of runs of the function in [h]. *)
  Definition result (h : list (cevent K)) u k := fst (cache_call keq hashable g u k (after h)).
  Definition count (h : list (cevent K)) := invoked (after h).

  (** [remembered h u k v]: some earlier call with the same owner, names and an equal key
      returned [v], and nothing was forgotten since. *)
  Definition remembered (h : list (cevent K)) (u : ufn) (k : K) (v : V) : Prop :=
    exists h1 u' k' h2, h = h1 ++ CCall u' k' :: h2 /\
      owner u' = owner u /\ get_fn_names u' = get_fn_names u /\
      keq k k' = true /\ hashable k' = true /\ result h1 u' k' = Ok v /\
      Forall (fun e => forgets (owner u) e = false) h2.

  (** ** Proofs *)

  Lemma ckey_eqb_spec a b : reflect (a = b) (ckey_eqb a b).
  Proof.
    destruct a as [i|], b as [j|]; simpl; try (constructor; congruence).
    destruct (Nat.eqb_spec i j); constructor; congruence.
  Qed.

  Lemma after_snoc h e : after (h ++ [e]) = cstep keq hashable g (after h) e.
  Proof. unfold after, cache_after. rewrite fold_left_app. reflexivity. Qed.

  Definition tab (st : @cstate K V) o : @table K V := match tables st o with Some t => t | None => [] end.

  Lemma lookup_app n k (t1 t2 : @table K V) :
    lookup keq n k (t1 ++ t2) =
    match lookup keq n k t1 with Some v => Some v | None => lookup keq n k t2 end.
  Proof.
    induction t1 as [|[[n' k'] v'] t1 IH]; simpl; [reflexivity|].
    destruct (Nat.eqb n n' && keq k k'); [reflexivity|exact IH].
  Qed.

  (** How one event changes what is looked up under owner [o]. *)
  Lemma tab_call st u k o :
    tab (snd (cache_call keq hashable g u k st)) o =
    if ckey_eqb o (owner u) then
      tab st o ++ (if hashable k then
                     match lookup keq (get_fn_names u) k (tab st o) with
                     | Some _ => []
                     | None => match g (invoked st) (get_fn_names u) k with
                               | Ok v => [(get_fn_names u, k, v)] | Err _ => [] end
                     end else [])
    else tab st o.
  Proof.
    unfold cache_call, tab. destruct (ckey_eqb_spec o (owner u)) as [->|Hn].
    - destruct (hashable k); simpl.
      + destruct (lookup keq (get_fn_names u) k _) eqn:E; simpl.
        * unfold set. destruct (ckey_eqb_spec (owner u) (owner u)); [|congruence].
          rewrite app_nil_r. reflexivity.
        * destruct (g (invoked st) (get_fn_names u) k); simpl; unfold set;
            (destruct (ckey_eqb_spec (owner u) (owner u)); [|congruence]); rewrite ?app_nil_r; reflexivity.
      + unfold set. destruct (ckey_eqb_spec (owner u) (owner u)); [|congruence].
        rewrite app_nil_r; reflexivity.
    - destruct (hashable k); simpl.
      + destruct (lookup keq (get_fn_names u) k _) eqn:E; simpl.
        * unfold set. destruct (ckey_eqb_spec o (owner u)); congruence.
        * destruct (g (invoked st) (get_fn_names u) k); simpl; unfold set;
            destruct (ckey_eqb_spec o (owner u)); congruence.
      + unfold set. destruct (ckey_eqb_spec o (owner u)); congruence.
  Qed.

  Lemma tab_other st e o : (forall u k, e <> CCall u k) ->
    tab (cstep keq hashable g st e) o = if forgets o e then [] else tab st o.
  Proof.
    intros Hc. destruct e as [u k|u| |id].
    - destruct (Hc u k eq_refl).
    - simpl. unfold cache_delete. destruct (strip u) as [id [|] n| |] eqn:E; try reflexivity.
      destruct (tables st (CFun id)) as [t|] eqn:Et; simpl; unfold tab; simpl.
      + unfold set. destruct (ckey_eqb o (CFun id)); reflexivity.
      + destruct (ckey_eqb_spec o (CFun id)) as [->|]; [rewrite Et; reflexivity|reflexivity].
    - reflexivity.
    - simpl. unfold tab; simpl. unfold set. destruct (ckey_eqb o (CFun id)); reflexivity.
  Qed.

  Lemma result_lookup h u k :
    result h u k =
    if hashable k then
      match lookup keq (get_fn_names u) k (tab (after h) (owner u)) with
      | Some v => Ok v
      | None => g (count h) (get_fn_names u) k
      end
    else Err TypeError.
  Proof.
    unfold result, cache_call. fold (tab (after h) (owner u)).
    destruct (hashable k); simpl; [|reflexivity].
    destruct (lookup _ _ _ _); simpl; [reflexivity|].
    unfold count. destruct (g _ _ _); reflexivity.
  Qed.

  Lemma lookup_cong n k k' (t : @table K V) : keq k k' = true -> lookup keq n k t = lookup keq n k' t.
  Proof.
    intros H. induction t as [|[[n1 k1] v1] t IH]; simpl; [reflexivity|].
    assert (E : keq k k1 = keq k' k1).
    { destruct (keq k' k1) eqn:E'; [eapply keq_trans; eauto|].
      destruct (keq k k1) eqn:E''; [|reflexivity].
      rewrite (keq_trans k' k k1) in E'; auto. }
    rewrite E, IH. reflexivity.
  Qed.

  Lemma snoc_cases {X} (h h1 h2 : list X) e x :
    h ++ [e] = h1 ++ x :: h2 ->
    (h2 = [] /\ h = h1 /\ e = x) \/ (exists h2', h2 = h2' ++ [e] /\ h = h1 ++ x :: h2').
  Proof.
    destruct h2 as [|y h2 _] using rev_ind; intros E.
    - left. apply app_inj_tail in E as [-> ->]. auto.
    - right. rewrite app_comm_cons, app_assoc in E. apply app_inj_tail in E as [-> ->]. eauto.
  Qed.

  (** The table holds exactly the remembered values. *)
  Lemma lookup_remembered h : forall u k v,
    lookup keq (get_fn_names u) k (tab (after h) (owner u)) = Some v <-> remembered h u k v.
  Proof.
    induction h as [|e h IH] using rev_ind; intros u k v.
    - split; [discriminate|]. intros (h1 & u' & k' & h2 & E & _). destruct h1; discriminate.
    - assert (Hstep : forall w : V, (forgets (owner u) e = false /\ remembered h u k w) \/
        (exists u' k', e = CCall u' k' /\ owner u' = owner u /\ get_fn_names u' = get_fn_names u /\
           keq k k' = true /\ hashable k' = true /\ result h u' k' = Ok w) <-> remembered (h ++ [e]) u k w).
      { intros w. split.
        - intros [[Hf (h1 & u' & k' & h2 & -> & Ho & Hn & Hk & Hh & Hr & HF)]|(u' & k' & -> & Ho & Hn & Hk & Hh & Hr)].
          + exists h1, u', k', (h2 ++ [e]). rewrite <- app_assoc. simpl.
            do 6 (split; [auto|]). apply Forall_app; split; [exact HF|]. constructor; auto.
          + exists h, u', k', []. do 6 (split; [auto|]). constructor.
        - intros (h1 & u' & k' & h2 & E & Ho & Hn & Hk & Hh & Hr & HF).
          apply snoc_cases in E as [(-> & -> & ->)|(h2' & -> & ->)].
          + right. exists u', k'. auto 10.
          + left. apply Forall_app in HF as [HF1 HF2]. inversion HF2 as [|e' l He _]; subst.
            split; [exact He|]. exists h1, u', k', h2'. auto 10. }
      rewrite after_snoc, <- Hstep. destruct e as [u1 k1|u1| |id].
      + simpl cstep. rewrite tab_call. simpl forgets.
        destruct (ckey_eqb_spec (owner u) (owner u1)) as [Ho|Ho].
        2:{ rewrite IH. split; [left; auto|]. intros [[_ H]|(u' & k' & E & Ho' & _)]; [exact H|].
            injection E as -> ->. congruence. }
        rewrite lookup_app. destruct (lookup keq (get_fn_names u) k (tab (after h) (owner u))) as [v0|] eqn:E0.
        * rewrite IH in E0. split.
          -- intros H; injection H as ->. left; auto.
          -- intros [[_ H]|(u' & k' & E & Ho' & Hn' & Hk & Hh & Hr)].
             ++ apply IH in H. apply IH in E0. congruence.
             ++ injection E as -> ->. rewrite result_lookup, Hh, Hn', Ho' in Hr.
                apply IH in E0. rewrite (lookup_cong _ _ _ _ Hk) in E0. rewrite E0 in Hr. congruence.
        * assert (H0 : forall w, ~ remembered h u k w) by (intros w Hw; apply IH in Hw; congruence).
          split.
          -- intros H. right. exists u1, k1.
             destruct (hashable k1) eqn:Hh; [|discriminate].
             destruct (lookup keq (get_fn_names u1) k1 (tab (after h) (owner u))) eqn:E1; [discriminate|].
             destruct (g (invoked (after h)) (get_fn_names u1) k1) as [v1|] eqn:Eg; [|discriminate].
             simpl in H. destruct (Nat.eqb_spec (get_fn_names u) (get_fn_names u1)) as [En|]; [|discriminate].
             simpl in H. destruct (keq k k1) eqn:Ek; [|discriminate]. injection H as ->.
             do 5 (split; [auto|]). rewrite result_lookup, Hh, <- Ho, E1. exact Eg.
          -- intros [[_ H]|(u' & k' & E & Ho' & Hn' & Hk & Hh & Hr)]; [destruct (H0 _ H)|].
             injection E as -> ->. rewrite Hh. rewrite result_lookup, Hh, Ho', Hn' in Hr. rewrite Hn'.
             rewrite <- (lookup_cong _ _ _ _ Hk), E0 in Hr. rewrite <- (lookup_cong _ _ _ _ Hk), E0.
             unfold count in Hr. rewrite Hr. simpl. rewrite Nat.eqb_refl, Hk. reflexivity.
      + rewrite tab_other by discriminate. destruct (forgets (owner u) (CDelete u1)).
        * split; [discriminate|]. intros [[? _]|(? & ? & ? & _)]; discriminate.
        * rewrite IH. split; [left; auto|]. intros [[_ H]|(? & ? & ? & _)]; [exact H|discriminate].
      + rewrite tab_other by discriminate. simpl forgets.
        split; [discriminate|]. intros [[? _]|(? & ? & ? & _)]; discriminate.
      + rewrite tab_other by discriminate. destruct (forgets (owner u) (CGone id)).
        * split; [discriminate|]. intros [[? _]|(? & ? & ? & _)]; discriminate.
        * rewrite IH. split; [left; auto|]. intros [[_ H]|(? & ? & ? & _)]; [exact H|discriminate].
  Qed.

  (** ** C48 *)

  (** A remembered value (the same object) is returned without running the function again;
      otherwise the function is run, once. *)
  Theorem C48_memo h u k :
    hashable k = true ->
    (forall v, remembered h u k v ->
       result h u k = Ok v /\ count (h ++ [CCall u k]) = count h) /\
    ((forall v, ~ remembered h u k v) ->
       result h u k = g (count h) (get_fn_names u) k /\ count (h ++ [CCall u k]) = S (count h)).
  Proof.
    intros Hh. split.
    - intros v Hv. apply lookup_remembered in Hv. split.
      + rewrite result_lookup, Hh, Hv. reflexivity.
      + unfold count. rewrite after_snoc. simpl. unfold cache_call. fold (tab (after h) (owner u)).
        rewrite Hh, Hv. reflexivity.
    - intros Hn. assert (E : lookup keq (get_fn_names u) k (tab (after h) (owner u)) = None).
      { destruct (lookup _ _ _ _) as [v|] eqn:E; [|reflexivity].
        destruct (Hn v). apply lookup_remembered; exact E. }
      split.
      + rewrite result_lookup, Hh, E. reflexivity.
      + unfold count. rewrite after_snoc. simpl. unfold cache_call. fold (tab (after h) (owner u)).
        rewrite Hh, E. simpl. destruct (g _ _ _); reflexivity.
  Qed.

  (** Unhashable arguments raise and leave what is remembered alone. *)
  Theorem C48_unhashable h u k :
    hashable k = false ->
    result h u k = Err TypeError /\
    (forall u' k' v, remembered (h ++ [CCall u k]) u' k' v <-> remembered h u' k' v).
  Proof.
    intros Hh. split; [rewrite result_lookup, Hh; reflexivity|].
    intros u' k' v. rewrite <- !lookup_remembered, after_snoc. simpl cstep.
    rewrite tab_call, Hh, app_nil_r. destruct (ckey_eqb _ _); reflexivity.
  Qed.

  (** For a function that depends only on names and arguments, up to equality of keys, the
      cache is invisible. *)
  Theorem C48_transparent (f : nat -> K -> res V) h u k :
    (forall i n l, g i n l = f n l) ->
    (forall n l l', keq l l' = true -> f n l = f n l') ->
    hashable k = true -> result h u k = f (get_fn_names u) k.
  Proof.
    intros Hg Hf Hh.
    assert (H : forall m h u k, length h < m -> hashable k = true -> result h u k = f (get_fn_names u) k).
    { clear h u k Hh. induction m as [|m IH]; intros h u k Hm Hh; [lia|].
      rewrite result_lookup, Hh. destruct (lookup _ _ _ _) as [v|] eqn:E; [|apply Hg].
      apply lookup_remembered in E as (h1 & u' & k' & h2 & -> & Ho & Hn & Hk & Hh' & Hr & _).
      rewrite IH in Hr; [|rewrite app_length in Hm; simpl in Hm; lia|exact Hh'].
      rewrite <- Hr, Hn. apply Hf. apply keq_sym, Hk. }
    eapply H; [|exact Hh]. apply Nat.lt_succ_diag_r.
  Qed.
  (** [cache_delete] warns exactly if there is nothing to delete; afterwards nothing is left, and nothing else was touched. *)
  Theorem C48_delete u (st : @cstate K V) :
    (fst (cache_delete u st) = false <-> exists id n t, strip u = UFn id true n /\ tables st (CFun id) = Some t) /\
    (forall o, tables (snd (cache_delete u st)) o = match strip u with UFn id true _ => if ckey_eqb o (CFun id) then None else tables st o | _ => tables st o end) /\
    invoked (snd (cache_delete u st)) = invoked st.
  Proof.
    unfold cache_delete. destruct (strip u) as [id [|] n| |] eqn:E.
    2-4: cbn; split; [split; [discriminate|intros (i & m & t & H & _); discriminate]|auto].
    destruct (tables st (CFun id)) as [t|] eqn:Et; cbn [fst snd tables invoked].
    - split; [split; [eauto 6|auto]|auto].
    - split; [split; [discriminate|intros (i & m & t & H & H2); injection H as <- <-; congruence]|]. split; [|auto]. intros o.
      destruct (ckey_eqb_spec o (CFun id)) as [->|]; auto.
  Qed.
End Props.
Print Assumptions C48_delete.
Print Assumptions C48_memo.
Print Assumptions C48_unhashable.
Print Assumptions C48_transparent.

Definition fresh (i n k : nat) : res nat := Ok i.
Definition all_hash (k : nat) : bool := true.

(** [delete] strips [__wrapped__] although the cache does not: the entry of a function
    decorated with [functools.wraps] survives its deletion, and the entry of the wrapped
    function is deleted instead. *)
Theorem C48_delete_wrapped_refuted :
  let f := UFn 0 true 7 in
  let w := UWraps 1 true f in
  let after h := cache_after Nat.eqb all_hash fresh h in
  fst (cache_call Nat.eqb all_hash fresh w 5 (after [CCall f 5; CCall w 5; CDelete w])) = Ok 1 /\
  fst (cache_call Nat.eqb all_hash fresh f 5 (after [CCall f 5; CCall w 5; CDelete w])) = Ok 2.
Proof. split; reflexivity. Qed.
Print Assumptions C48_delete_wrapped_refuted.

(** Objects that are no plain functions share one table: two different partials of functions
    of the same name get the same object, and neither can be deleted. *)
Theorem C48_nonfunctions_share_refuted :
  let p := UPartial 2 (UFn 0 true 7) in
  let q := UPartial 3 (UFn 1 true 7) in
  let after h := cache_after Nat.eqb all_hash fresh h in
  fst (cache_call Nat.eqb all_hash fresh q 5 (after [CCall p 5; CDelete p])) = Ok 0.
Proof. reflexivity. Qed.
Print Assumptions C48_nonfunctions_share_refuted.

(** A function that tells [1] from [True] is not told: equal keys share an entry. *)
Theorem C48_equal_keys_refuted :
  exists (keq : bool -> bool -> bool) (f : nat -> bool -> res bool),
    (forall k, keq k k = true) /\
    fst (cache_call keq (fun _ => true) (fun _ => f) (UFn 0 true 0) true
           (cache_after keq (fun _ => true) (fun _ => f) [CCall (UFn 0 true 0) false]))
    <> f 0 true.
Proof.
  exists (fun _ _ => true), (fun _ k => Ok k). split; [reflexivity|]. discriminate.
Qed.
Print Assumptions C48_equal_keys_refuted.

(** Non-vacuity: the second call is remembered, a deletion makes the third run again. *)
Example cache_example :
  let f := UFn 0 true 7 in
  let after h := cache_after Nat.eqb all_hash fresh h in
  fst (cache_call Nat.eqb all_hash fresh f 5 (after [CCall f 5])) = Ok 0 /\
  fst (cache_call Nat.eqb all_hash fresh f 5 (after [CCall f 5; CDelete f])) = Ok 1 /\
  remembered Nat.eqb all_hash fresh [CCall f 5] f 5 0.
Proof.
  split; [reflexivity|]. split; [reflexivity|].
  exists [], (UFn 0 true 7), 5, []. do 6 (split; [reflexivity|]). constructor.
Qed.
Print Assumptions C48_owner.
Print Assumptions C48_names.
