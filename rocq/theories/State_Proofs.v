From Verif Require Export State_Spec TreeEq_Proofs.

Lemma marker_eqb_spec x y : marker_eqb x y = true <-> x = y.
Proof. destruct x, y; cbn; try (split; congruence); rewrite Nat.eqb_eq; split; congruence. Qed.
Lemma marker_eqb_refl x : marker_eqb x x = true.
Proof. apply marker_eqb_spec; auto. Qed.
Lemma marker_eqb_neq x y : x <> y -> marker_eqb x y = false.
Proof. intros H. destruct (marker_eqb x y) eqn:E; auto. apply marker_eqb_spec in E; congruence. Qed.
Lemma marker_dec (x y : marker) : {x = y} + {x <> y}.
Proof. destruct (marker_eqb x y) eqn:E; [left; apply marker_eqb_spec; auto|right; intros ->; rewrite marker_eqb_refl in E; discriminate]. Qed.

Section DictFacts.
  Context {V : Type}.
  Lemma dget_dset (d : dict V) k v k' : dget (dset d k v) k' = if marker_eqb k k' then Some v else dget d k'.
  Proof.
    induction d as [|[k0 v0] d IH]; cbn; auto.
    destruct (marker_eqb k0 k) eqn:E.
    - apply marker_eqb_spec in E. subst. cbn. destruct (marker_eqb k k'); auto.
    - cbn. rewrite IH. destruct (marker_eqb k0 k') eqn:E'; auto.
      apply marker_eqb_spec in E'. subst. destruct (marker_eqb k k') eqn:E2; auto.
      apply marker_eqb_spec in E2. subst. rewrite marker_eqb_refl in E. discriminate.
  Qed.
  Lemma dget_In (d : dict V) k : dget d k <> None <-> In k (keys d).
  Proof.
    induction d as [|[k0 v0] d IH]; cbn; [tauto|].
    destruct (marker_eqb k0 k) eqn:E.
    - apply marker_eqb_spec in E. subst. split; [auto|discriminate].
    - rewrite IH. split; auto. intros [->|]; auto. rewrite marker_eqb_refl in E; discriminate.
  Qed.
  Lemma dget_Some_In (d : dict V) k v : dget d k = Some v -> In (k, v) d.
  Proof.
    induction d as [|[k0 v0] d IH]; cbn; [discriminate|]. destruct (marker_eqb k0 k) eqn:E; auto.
    apply marker_eqb_spec in E. subst. intros H; inv H; auto.
  Qed.
  Lemma In_dget (d : dict V) k v : NoDup (keys d) -> In (k, v) d -> dget d k = Some v.
  Proof.
    induction d as [|[k0 v0] d IH]; cbn; [tauto|]. intros HN [E|Hin]; inversion HN as [|x l HX HN']; subst.
    - inv E. rewrite marker_eqb_refl; auto.
    - rewrite marker_eqb_neq; auto. intros ->. apply HX. apply in_map_iff. exists (k, v); auto.
  Qed.
  Lemma keys_dset (d : dict V) k v : dget d k <> None -> keys (dset d k v) = keys d.
  Proof.
    induction d as [|[k0 v0] d IH]; cbn; [congruence|]. destruct (marker_eqb k0 k) eqn:E; cbn; auto.
    intros H. f_equal; auto.
  Qed.
  Lemma keys_dset_new (d : dict V) k v : dget d k = None -> keys (dset d k v) = keys d ++ [k].
  Proof.
    induction d as [|[k0 v0] d IH]; cbn; auto. destruct (marker_eqb k0 k) eqn:E; [discriminate|].
    intros H. cbn. f_equal; auto.
  Qed.
  Lemma dset_new (d : dict V) k v : dget d k = None -> dset d k v = d ++ [(k, v)].
  Proof.
    induction d as [|[k0 v0] d IH]; cbn; auto. destruct (marker_eqb k0 k) eqn:E; [discriminate|].
    intros H. cbn. f_equal; auto.
  Qed.
  Lemma NoDup_snoc {X} (l : list X) x : NoDup l -> ~ In x l -> NoDup (l ++ [x]).
  Proof.
    induction l as [|y l IH]; cbn; intros H HX; [constructor; auto; constructor|].
    inversion H as [|z m Hn Hl]; subst. constructor; [rewrite in_app_iff; intros [?|[?|[]]]; [auto|subst; tauto]|auto].
  Qed.
  Lemma NoDup_dset (d : dict V) k v : NoDup (keys d) -> NoDup (keys (dset d k v)).
  Proof.
    intros H. destruct (dget d k) eqn:E.
    - rewrite keys_dset; congruence.
    - rewrite keys_dset_new by auto. apply NoDup_snoc; auto. rewrite <- dget_In. congruence.
  Qed.
  Lemma dict_ext (d d' : dict V) : NoDup (keys d) -> keys d = keys d' -> (forall k, dget d k = dget d' k) -> d = d'.
  Proof.
    revert d'; induction d as [|[k v] d IH]; intros [|[k' v'] d'] HN HK HG; try discriminate; auto.
    cbn in HK. injection HK as -> HK. inversion HN as [|x l HX HN']; subst.
    pose proof (HG k') as H0. cbn in H0. rewrite marker_eqb_refl in H0. inv H0. f_equal. apply IH; auto.
    intros k. specialize (HG k). cbn in HG. destruct (marker_eqb k' k) eqn:E; auto.
    apply marker_eqb_spec in E. subst k'.
    assert (dget d k = None) as -> by (destruct (dget d k) eqn:E'; auto; exfalso; apply HX, dget_In; congruence).
    assert (dget d' k = None) as ->; auto. destruct (dget d' k) eqn:E'; auto. exfalso. apply HX. 
    replace (keys d) with (keys d'). apply dget_In; congruence.
  Qed.
End DictFacts.

Section Heap.
  Context {L S : Type} (asarray : L -> res L) (struct : L -> S) (seqb : S -> S -> bool).
  Notation val := (tree L).
  Notation heap := (@heap L).
  Notation set_ := (state_set asarray struct seqb).
  Notation step := (step asarray struct seqb).

  Lemma deref_lt (h : heap) s d : deref h s = Some d -> s < length h.
  Proof. unfold deref. destruct (nth_error h s) eqn:E; [|discriminate]. intros _. eapply nth_error_lt; eauto. Qed.
  Lemma deref_app (h : heap) d s : s < length h -> deref (h ++ [Some d]) s = deref h s.
  Proof. intros H. unfold deref. rewrite nth_error_app1; auto. Qed.
  Lemma deref_new (h : heap) d : deref (h ++ [Some d]) (length h) = Some d.
  Proof. unfold deref. rewrite nth_error_app2, Nat.sub_diag; auto. Qed.
  Lemma invalidate_length (h : heap) s : length (invalidate h s) = length h.
  Proof. revert s; induction h; intros [|s]; cbn; auto. Qed.
  Lemma deref_invalidate (h : heap) s x : deref (invalidate h s) x = if Nat.eqb x s then None else deref h x.
  Proof.
    revert s x; induction h as [|y h IH]; intros s x; [destruct s; cbn; unfold deref; destruct x; cbn; auto; destruct (Nat.eqb _ _); auto|].
    destruct s, x; cbn; auto. exact (IH s x).
  Qed.

  (** What a successful write does to the heap. *)
  Definition replaced (h : heap) (s : nat) (h' : heap) (s' : nat) (d : dict val) : Prop :=
    s' = length h /\ length h' = Datatypes.S (length h) /\ s < length h /\
    deref h' s = None /\ deref h' s' = Some d /\
    forall x, x < length h -> x <> s -> deref h' x = deref h x.
  Lemma replaced_intro h s d : s < length h -> replaced h s (invalidate (h ++ [Some d]) s) (length h) d.
  Proof.
    intros H. split; auto. split; [rewrite invalidate_length, app_length; cbn; lia|]. split; auto.
    split; [rewrite deref_invalidate, Nat.eqb_refl; auto|].
    split.
    - rewrite deref_invalidate. destruct (Nat.eqb_spec (length h) s); [lia|]. apply deref_new.
    - intros x Hx Hn. rewrite deref_invalidate. apply Nat.eqb_neq in Hn. rewrite Hn. apply deref_app; auto.
  Qed.

  Lemma set_ok (h : heap) s i v h' s' : set_ h s i v = (h', Ok s') ->
    exists d m old v', deref h s = Some d /\ i = Some m /\ dget d m = Some old /\ as_arrays asarray v = Ok v' /\
      tree_eqb seqb (structs struct old) (structs struct v') = true /\ replaced h s h' s' (dset d m v').
  Proof.
    unfold state_set. destruct (deref h s) as [d|] eqn:Ed; [|discriminate].
    destruct i as [m|]; [|discriminate]. destruct (dget d m) as [old|] eqn:Eo; [|discriminate].
    destruct (as_arrays asarray v) as [v'|] eqn:Ev; [|discriminate].
    destruct (tree_eqb _ _ _) eqn:Et; [|discriminate]. unfold alloc. intros H. inv H.
    exists d, m, old, v'. do 5 (split; [auto|]). apply replaced_intro. eapply deref_lt; eauto.
  Qed.
  Lemma set_err (h : heap) s i v h' e : set_ h s i v = (h', Err e) -> h' = h.
  Proof.
    unfold state_set, alloc. destruct (deref h s); [|congruence]. destruct i; [|congruence].
    destruct (dget _ _); [|congruence]. destruct (as_arrays _ _); [|congruence]. destruct (tree_eqb _ _ _); congruence.
  Qed.
  Lemma update_ok (h : heap) s x h' s' : state_update h s x = (h', Ok s') ->
    exists d s2 items d', deref h s = Some d /\ x = Some s2 /\ deref h s2 = Some items /\ merge d items = Ok d' /\
      replaced h s h' s' d'.
  Proof.
    unfold state_update. destruct (deref h s) as [d|] eqn:Ed; [|discriminate].
    destruct x as [s2|]; [|discriminate]. destruct (deref h s2) as [items|] eqn:E2; [|discriminate].
    destruct (merge d items) as [d'|] eqn:Em; [|discriminate]. unfold alloc. intros H; inv H.
    exists d, s2, items, d'. do 4 (split; [auto|]). apply replaced_intro. eapply deref_lt; eauto.
  Qed.
  Lemma update_err (h : heap) s x h' e : state_update h s x = (h', Err e) -> h' = h.
  Proof.
    unfold state_update, alloc. destruct (deref h s); [|congruence]. destruct x; [|congruence].
    destruct (deref h n); [|congruence]. destruct (merge _ _); congruence.
  Qed.
  (** Creating an object. *)
  Definition added (h : heap) (h' : heap) (s' : nat) (d : dict val) : Prop :=
    h' = h ++ [Some d] /\ s' = length h.
  Lemma substate_ok (h : heap) s m h' s' : state_substate h s m = (h', Ok s') ->
    exists d d', deref h s = Some d /\ restrict d (markers m) [] = Ok d' /\ added h h' s' d'.
  Proof.
    unfold state_substate. destruct (deref h s) as [d|]; [|discriminate].
    destruct (restrict d (markers m) []) as [d'|] eqn:E; [|discriminate]. unfold alloc. intros H; inv H.
    exists d, d'. repeat (split; auto).
  Qed.
  Lemma substate_err (h : heap) s m h' e : state_substate h s m = (h', Err e) -> h' = h.
  Proof. unfold state_substate, alloc. destruct (deref h s); [|congruence]. destruct (restrict _ _ _); congruence. Qed.

  Lemma dead_raises (h : heap) s : deref h s = None ->
    (forall i, state_get h s i = Err ValueError) /\
    (forall i v, set_ h s i v = (h, Err ValueError)) /\
    (forall m, state_substate h s m = (h, Err ValueError)) /\
    (forall x, state_update h s x = (h, Err ValueError)) /\
    state_flatten h s = Err ValueError /\
    (forall s1, deref h s1 <> None -> state_update h s1 (Some s) = (h, Err AttributeError)).
  Proof.
    intros H. unfold state_get, state_set, state_substate, state_update, state_flatten. rewrite H.
    repeat split; auto. intros s1 H1. destruct (deref h s1); congruence.
  Qed.

  (** Effect of any call on any object. *)
  Lemma step_deref (h : heap) o x : x < length h ->
    (subject o = Some x /\ writes o = true /\ snd (step h o) = true /\ deref (fst (step h o)) x = None) \/
    deref (fst (step h o)) x = deref h x /\ ~ (subject o = Some x /\ writes o = true /\ snd (step h o) = true).
  Proof.
    intros Hx. destruct o as [s i|s i v|s m|s y|s|ks vs|m]; cbn [step State_Spec.step subject writes].
    - right. split; auto. intros (_ & ? & _); discriminate.
    - destruct (set_ h s i v) as [h' [s'|e]] eqn:E; cbn [fst snd is_ok].
      + apply set_ok in E as (d & m & old & v' & _ & _ & _ & _ & _ & (_ & _ & _ & H1 & _ & H2)).
        destruct (Nat.eq_dec x s) as [->|N]; [left; auto|right; split; auto]. intros (E & _); congruence.
      + apply set_err in E. subst. right. split; auto. intros (_ & _ & ?); discriminate.
    - right. split; [|intros (_ & ? & _); discriminate].
      destruct (state_substate h s m) as [h' [s'|e]] eqn:E; cbn [fst].
      + apply substate_ok in E as (d & d' & _ & _ & -> & _). apply deref_app; auto.
      + apply substate_err in E. subst; auto.
    - destruct (state_update h s y) as [h' [s'|e]] eqn:E; cbn [fst snd is_ok].
      + apply update_ok in E as (d & s2 & items & d' & _ & _ & _ & _ & (_ & _ & _ & H1 & _ & H2)).
        destruct (Nat.eq_dec x s) as [->|N]; [left; auto|right; split; auto]. intros (E & _); congruence.
      + apply update_err in E. subst. right. split; auto. intros (_ & _ & ?); discriminate.
    - right. split; auto. intros (_ & ? & _); discriminate.
    - right. split; [|intros (? & _); discriminate].
      unfold state_unflatten, alloc. destruct (Nat.eqb _ _); cbn; auto. apply deref_app; auto.
    - right. split; [|intros (? & _); discriminate].
      unfold state_init, alloc. destruct (init_dict _ _ _); cbn; auto. apply deref_app; auto.
  Qed.
  Lemma step_length (h : heap) o : length h <= length (fst (step h o)).
  Proof.
    destruct o as [s i|s i v|s m|s y|s|ks vs|m]; cbn [step State_Spec.step]; auto.
    - destruct (set_ h s i v) as [h' [s'|e]] eqn:E; cbn [fst].
      + apply set_ok in E as (d & m & old & v' & _ & _ & _ & _ & _ & (_ & H & _)). lia.
      + apply set_err in E. subst; auto.
    - destruct (state_substate h s m) as [h' [s'|e]] eqn:E; cbn [fst].
      + apply substate_ok in E as (d & d' & _ & _ & -> & _). rewrite app_length; cbn; lia.
      + apply substate_err in E. subst; auto.
    - destruct (state_update h s y) as [h' [s'|e]] eqn:E; cbn [fst].
      + apply update_ok in E as (d & s2 & items & d' & _ & _ & _ & _ & (_ & H & _)). lia.
      + apply update_err in E. subst; auto.
    - unfold state_unflatten, alloc. destruct (Nat.eqb _ _); cbn; auto. rewrite app_length; cbn; lia.
    - unfold state_init, alloc. destruct (init_dict _ _ _); cbn; auto. rewrite app_length; cbn; lia.
  Qed.
  Lemma step_dead (h : heap) o x : deref h x = None -> subject o = Some x -> snd (step h o) = false.
  Proof.
    intros H Hs. destruct (dead_raises h x H) as (A & B & C & D & E & _).
    destruct o; cbn in Hs; inv Hs; cbn [step State_Spec.step].
    - rewrite A; auto. - rewrite B; auto. - rewrite C; auto. - rewrite D; auto. - rewrite E; auto.
  Qed.
  Notation run := (run asarray struct seqb).
  Lemma run_dead os : forall h x, x < length h -> deref h x = None ->
    deref (fst (run h os)) x = None /\
    forall n o b, nth_error os n = Some o -> nth_error (snd (run h os)) n = Some b -> subject o = Some x -> b = false.
  Proof.
    induction os as [|o os IH]; intros h x Hx Hd.
    - cbn. split; auto. intros [|n]; discriminate.
    - cbn [State_Spec.run]. destruct (step h o) as [h1 b] eqn:Es. destruct (run h1 os) as [h2 bs] eqn:Er. cbn [fst snd].
      pose proof (step_length h o) as HL. pose proof (step_deref h o x Hx) as HD. rewrite Es in HL, HD. cbn [fst snd] in *.
      assert (Hd1 : deref h1 x = None) by (destruct HD as [(_ & _ & _ & ?)|[E _]]; congruence).
      destruct (IH h1 x) as [I1 I2]; [lia|auto|]. rewrite Er in I1, I2. cbn in I1, I2. split; auto.
      intros [|n] o' b' Ho Hb Hs; cbn in Ho, Hb.
      + inv Ho. inv Hb. pose proof (step_dead h o' x Hd Hs) as Hf. rewrite Es in Hf. auto.
      + eauto.
  Qed.
  Lemma run_once os : forall h x, x < length h -> forall n m o o',
    nth_error os n = Some o -> nth_error os m = Some o' -> n < m ->
    subject o = Some x -> writes o = true -> nth_error (snd (run h os)) n = Some true ->
    subject o' = Some x -> nth_error (snd (run h os)) m = Some true -> False.
  Proof.
    induction os as [|o0 os IH]; intros h x Hx n m o o' Hn Hm Hlt Hs Hw Hb Hs' Hb'; [destruct n; discriminate|].
    cbn [State_Spec.run] in *. destruct (step h o0) as [h1 b] eqn:Es. destruct (run h1 os) as [h2 bs] eqn:Er. cbn [fst snd] in *.
    pose proof (step_length h o0) as HL. pose proof (step_deref h o0 x Hx) as HD. rewrite Es in HL, HD. cbn [fst snd] in *.
    destruct m as [|m]; [lia|]. cbn in Hm, Hb'. destruct n as [|n]; cbn in Hn, Hb.
    - inv Hn. inv Hb. destruct HD as [(_ & _ & _ & HD)|[_ HD]]; [|apply HD; auto].
      destruct (run_dead os h1 x) as [_ R]; [lia|auto|]. rewrite Er in R. cbn in R.
      specialize (R m o' true Hm Hb' Hs'). discriminate.
    - eapply (IH h1 x) with (n := n) (m := m); eauto; try lia; rewrite Er; auto.
  Qed.

  (** Contents. *)
  Lemma dget_merge (d items d' : dict val) : merge d items = Ok d' ->
    keys d' = keys d /\ (forall k, dget d' k = match last_write k items with Some v => Some v | None => dget d k end) /\
    forall k, In k (keys items) -> In k (keys d).
  Proof.
    revert d; induction items as [|[k v] items IH]; intros d H; cbn in H.
    - inv H. split; [auto|split; [auto|intros k []]].
    - destruct (dget d k) eqn:E; [|discriminate]. apply IH in H as (H1 & H2 & H3).
      assert (HK : keys (dset d k v) = keys d) by (apply keys_dset; congruence). rewrite HK in H1, H3.
      split; [auto|]. split.
      + intros k0. rewrite H2. cbn. destruct (last_write k0 items); auto. rewrite dget_dset. destruct (marker_eqb k k0); auto.
      + intros k0 [<-|Hin]; auto. apply dget_In. cbn. congruence.
  Qed.
  Lemma merge_err (d items : dict val) e : merge d items = Err e ->
    e = ValueError /\ exists k, In k (keys items) /\ ~ In k (keys d).
  Proof.
    revert d; induction items as [|[k v] items IH]; intros d H; cbn in H; [discriminate|].
    destruct (dget d k) eqn:E.
    - apply IH in H as (-> & k0 & H1 & H2). split; auto. exists k0. rewrite keys_dset in H2 by congruence. cbn; auto.
    - inv H. split; auto. exists k. split; [left; auto|]. rewrite <- dget_In. congruence.
  Qed.
  Lemma last_write_dget (d : dict val) k : NoDup (keys d) -> last_write k d = dget d k.
  Proof.
    induction d as [|[k0 v0] d IH]; intros HN; cbn; auto. inversion HN as [|x l HX HN']; subst.
    rewrite IH by auto. destruct (dget d k) eqn:E; [|destruct (marker_eqb k0 k); auto].
    rewrite marker_eqb_neq; auto. intros ->. apply HX. apply dget_In. congruence.
  Qed.

  Lemma restrict_ok (d : dict val) ms : forall acc d', restrict d ms acc = Ok d' ->
    (forall k, dget d' k = if existsb (marker_eqb k) ms then dget d k else dget acc k) /\
    (forall m, In m ms -> In m (keys d)) /\ (NoDup (keys acc) -> NoDup (keys d')).
  Proof.
    induction ms as [|m ms IH]; intros acc d' H; cbn in H.
    - inv H. split; [auto|split; [intros m []|auto]].
    - destruct (dget d m) as [v|] eqn:E; [|discriminate]. apply IH in H as (H1 & H2 & H3).
      split; [|split].
      + intros k. rewrite H1. cbn. rewrite dget_dset. destruct (existsb (marker_eqb k) ms); [rewrite orb_true_r; auto|].
        rewrite orb_false_r. destruct (marker_eqb k m) eqn:Ek.
        * apply marker_eqb_spec in Ek. subst. rewrite marker_eqb_refl; auto.
        * rewrite (marker_eqb_neq m k); auto. intros ->. rewrite marker_eqb_refl in Ek. discriminate.
      + intros k [<-|Hin]; auto. apply dget_In. congruence.
      + intros HN. apply H3, NoDup_dset; auto.
  Qed.
  Lemma restrict_err (d : dict val) ms : forall acc e, restrict d ms acc = Err e ->
    e = KeyError /\ exists m, In m ms /\ ~ In m (keys d).
  Proof.
    induction ms as [|m ms IH]; intros acc e H; cbn in H; [discriminate|].
    destruct (dget d m) as [v|] eqn:E.
    - apply IH in H as (-> & k & H1 & H2). split; auto. exists k; cbn; auto.
    - inv H. split; auto. exists m. split; [left; auto|]. rewrite <- dget_In. congruence.
  Qed.

  (** All dictionaries have distinct keys. *)
  Definition wf (h : heap) : Prop := forall s d, deref h s = Some d -> NoDup (keys d).
  Lemma from_pairs_NoDup kvs : forall acc : dict val, NoDup (keys acc) -> NoDup (keys (from_pairs acc kvs)).
  Proof. induction kvs as [|[k v] kvs IH]; cbn; intros acc H; auto. apply IH, NoDup_dset; auto. Qed.
  Lemma init_dict_NoDup ls : forall acc d, init_dict asarray ls acc = Ok d -> NoDup (keys acc) -> NoDup (keys d).
  Proof.
    induction ls as [|l ls IH]; intros acc d H HN; cbn in H; [inv H; auto|].
    destruct l as [[m [v|]|o]| |k cs]; try discriminate; try (eapply IH; eauto; fail).
    destruct (as_arrays asarray v); cbn in H; [|discriminate]. eapply IH; eauto. apply NoDup_dset; auto.
  Qed.
  (** The dictionary that a call adds to the heap satisfies [P] if the others do. *)
  Lemma step_inv (P : dict val -> Prop) h o :
    (forall s d, deref h s = Some d -> P d) ->
    (forall s i v h' s' d m v', o = OSet s i v -> i = Some m -> deref h s = Some d -> set_ h s i v = (h', Ok s') ->
       as_arrays asarray v = Ok v' -> P d -> P (dset d m v')) ->
    (forall s m d d', o = OSubstate s m -> deref h s = Some d -> restrict d (markers m) [] = Ok d' -> P d -> P d') ->
    (forall d items d', merge d items = Ok d' -> P d -> P items -> P d') ->
    (forall ks vs, o = OUnflatten ks vs -> P (from_pairs [] (List.combine ks vs))) ->
    (forall m d, o = OInit m -> init_dict asarray (leaves no_leaf m) [] = Ok d -> P d) ->
    forall s d, deref (fst (step h o)) s = Some d -> P d.
  Proof.
    intros H0 Hset Hsub Hupd Hunf Hinit.
    assert (HA : forall d', P d' -> forall s d, deref (h ++ [Some d']) s = Some d -> P d).
    { intros d' HP s d Hd. destruct (Nat.lt_ge_cases s (length h)) as [Hlt|Hge].
      - rewrite deref_app in Hd by auto. eauto.
      - pose proof (deref_lt _ _ _ Hd) as Hl. rewrite app_length in Hl; cbn in Hl.
        assert (s = length h) as -> by lia. rewrite deref_new in Hd. congruence. }
    assert (HR : forall s0 h' s' d', P d' -> replaced h s0 h' s' d' -> forall s d, deref h' s = Some d -> P d).
    { intros s0 h' s' d' HP (-> & HL & _ & H1 & H2 & H3) s d Hd.
      destruct (Nat.eq_dec s s0) as [->|N]; [congruence|].
      destruct (Nat.lt_ge_cases s (length h)) as [Hlt|Hge]; [rewrite H3 in Hd; eauto|].
      pose proof (deref_lt _ _ _ Hd) as Hl. assert (s = length h) as -> by lia. congruence. }
    destruct o as [s i|s i v|s m|s y|s|ks vs|m]; cbn [step State_Spec.step]; auto.
    - destruct (set_ h s i v) as [h' [s'|e]] eqn:E; cbn [fst].
      + pose proof E as E'. apply set_ok in E as (d & m & old & v' & Hd & Hi & Ho & Hv & Ht & HRp).
        eapply (HR s h' s' (dset d m v')); auto. eapply (Hset s i v h' s' d m v'); eauto.
      + apply set_err in E. subst; auto.
    - destruct (state_substate h s m) as [h' [s'|e]] eqn:E; cbn [fst].
      + apply substate_ok in E as (d & d' & Hd & Hr & -> & _). apply (HA d'). eapply Hsub; eauto.
      + apply substate_err in E. subst; auto.
    - destruct (state_update h s y) as [h' [s'|e]] eqn:E; cbn [fst].
      + apply update_ok in E as (d & s2 & items & d' & Hd & -> & Hi & Hm & HRp). eapply (HR s h' s' d'); auto. eapply Hupd; eauto.
      + apply update_err in E. subst; auto.
    - unfold state_unflatten, alloc. destruct (Nat.eqb _ _); cbn; eauto.
    - unfold state_init, alloc. destruct (init_dict _ _ _) eqn:E; cbn; eauto.
  Qed.
  Lemma step_wf (h : heap) o : wf h -> wf (fst (step h o)).
  Proof.
    intros HW s d. apply (step_inv (fun d => NoDup (keys d))); auto.
    - intros. apply NoDup_dset; auto.
    - intros s0 m d0 d' _ _ Hr _. apply restrict_ok in Hr as (_ & _ & H). apply H. constructor.
    - intros d0 items d' Hm H1 _. apply dget_merge in Hm as (-> & _). auto.
    - intros. apply from_pairs_NoDup. constructor.
    - intros m d0 _ H. eapply init_dict_NoDup; eauto. constructor.
  Qed.
  Lemma run_wf os : forall h, wf h -> wf (fst (run h os)).
  Proof.
    induction os as [|o os IH]; intros h HW; cbn [State_Spec.run]; auto.
    pose proof (step_wf h o HW) as H1. destruct (step h o) as [h1 b]. cbn in H1.
    specialize (IH h1 H1). destruct (run h1 os); auto.
  Qed.

  Lemma lineage_spec h s w h' s' d : lineage asarray struct seqb h s w h' s' -> deref h s = Some d ->
    exists d', deref h' s' = Some d' /\ keys d' = keys d /\
      forall k, dget d' k = match last_write k w with Some v => Some v | None => dget d k end.
  Proof.
    intros HL Hd.
    assert (HLW : forall k (w1 w2 : list (marker * val)), last_write k (w1 ++ w2) = match last_write k w2 with Some v => Some v | None => last_write k w1 end).
    { clear. intros k w1 w2. induction w1 as [|[k0 v0] w1 IH]; cbn; [destruct (last_write k w2); auto|].
      rewrite IH. destruct (last_write k w2); auto. }
    induction HL as [|w h1 s1 m v v' h2 s2 HL IH Hv Hset|w h1 s1 x items h2 s2 HL IH Hi Hupd|w h1 s1 o HL IH Hno].
    - exists d. auto.
    - destruct IH as (d1 & E1 & K1 & G1). apply set_ok in Hset as (d0 & m0 & old & v0 & Hd0 & Hm & Ho & Hv0 & _ & HR).
      inv Hm. rewrite E1 in Hd0. inv Hd0. rewrite Hv in Hv0. inv Hv0.
      destruct HR as (_ & _ & _ & _ & H2 & _). exists (dset d0 m0 v0). split; auto.
      split; [rewrite keys_dset; congruence|]. intros k. rewrite dget_dset, HLW. cbn.
      destruct (marker_eqb m0 k); auto.
    - destruct IH as (d1 & E1 & K1 & G1). apply update_ok in Hupd as (d0 & s0 & it & d' & Hd0 & Hx & Hit & Hm & HR).
      inv Hx. rewrite E1 in Hd0. inv Hd0. rewrite Hi in Hit. inv Hit.
      destruct HR as (_ & _ & _ & _ & H2 & _). exists d'. split; auto.
      apply dget_merge in Hm as (K2 & G2 & _). split; [congruence|]. intros k. rewrite G2, HLW.
      destruct (last_write k it); auto.
    - destruct IH as (d1 & E1 & K1 & G1). exists d1. split; auto.
      destruct (step_deref h1 o s1) as [(A & B & _)|[-> _]]; auto; [eapply deref_lt; eauto|].
      destruct Hno as [Hno|Hno]; congruence.
  Qed.

  Section Typed.
    Hypothesis seqb_eq : forall a b, seqb a b = true <-> a = b.
    Variable G : marker -> tree S.
    Definition dict_typed (d : dict val) : Prop := forall k v, In (k, v) d -> structs struct v = G k.
    Lemma dset_typed d k v : dict_typed d -> structs struct v = G k -> dict_typed (dset d k v).
    Proof.
      intros HT HV. induction d as [|[k0 v0] d IH]; cbn.
      - intros k1 v1 [E|[]]. inv E; auto.
      - destruct (marker_eqb k0 k) eqn:E.
        + apply marker_eqb_spec in E. subst. intros k1 v1 [E|Hin]; [inv E; auto|]. apply HT. right; auto.
        + intros k1 v1 [E1|Hin]; [inv E1; apply HT; left; auto|]. revert k1 v1 Hin. apply IH.
          intros k1 v1 Hin. apply HT. right; auto.
    Qed.
    Lemma from_pairs_typed kvs : forall acc, dict_typed acc -> (forall k v, In (k, v) kvs -> structs struct v = G k) ->
      dict_typed (from_pairs acc kvs).
    Proof.
      induction kvs as [|[k v] kvs IH]; cbn; intros acc H HI; auto. apply IH; [|intros; apply HI; auto].
      apply dset_typed; auto.
    Qed.
    Lemma init_dict_typed ls : forall acc d, init_dict asarray ls acc = Ok d -> dict_typed acc ->
      (forall m v v', In (Leaf (Idx m (Some v))) ls -> as_arrays asarray v = Ok v' -> structs struct v' = G m) ->
      dict_typed d.
    Proof.
      induction ls as [|l ls IH]; intros acc d H HN HI; cbn in H; [inv H; auto|].
      assert (HI' : forall m v v', In (Leaf (Idx m (Some v))) ls -> as_arrays asarray v = Ok v' -> structs struct v' = G m).
      { intros m v v' Hin. apply (HI m v v'). right; auto. }
      destruct l as [[m [v|]|o]| |k cs]; try discriminate; try (eapply IH; eauto; fail).
      destruct (as_arrays asarray v) as [v'|] eqn:Ev; cbn in H; [|discriminate]. eapply IH; eauto.
      apply dset_typed; auto. apply (HI m v v'); auto. left; auto.
    Qed.
    Lemma step_typed (h : heap) o : typed struct G h -> op_typed asarray struct G o -> typed struct G (fst (step h o)).
    Proof.
      intros HT HO s d k v Hd. revert k v. change (dict_typed d). revert s d Hd. apply step_inv.
      - intros s d Hd k v. apply (HT s d k v Hd).
      - intros s i v h' s' d m v' _ -> Hd Hset Hv HP.
        apply set_ok in Hset as (d0 & m0 & old & v1 & Hd0 & Hm & Ho & Hv1 & Ht & _). inv Hm.
        rewrite Hd in Hd0; inv Hd0. rewrite Hv in Hv1; inv Hv1. apply dset_typed; auto.
        apply tree_eqb_eq in Ht; auto. rewrite <- Ht. apply HP. apply dget_Some_In; auto.
      - intros s m d d' _ _ Hr HP.
        assert (HX : forall ms acc, restrict d ms acc = Ok d' -> dict_typed acc -> dict_typed d').
        { clear -HP. induction ms as [|m ms IH]; intros acc H HA; cbn in H; [inv H; auto|].
          destruct (dget d m) eqn:E; [|discriminate]. eapply IH; eauto. apply dset_typed; auto.
          apply HP. apply dget_Some_In; auto. }
        eapply HX; eauto. intros k v [].
      - intros d items d' Hm HP HPi. revert d Hm HP HPi.
        induction items as [|[k v] items IH]; intros d H HP HI; cbn in H; [inv H; auto|].
        destruct (dget d k) eqn:E; [|discriminate]. eapply IH; eauto; [|intros k0 v0 Hin; apply HI; right; auto].
        apply dset_typed; auto. apply HI. left; auto.
      - intros ks vs ->. apply from_pairs_typed; auto. intros k v [].
      - intros m d -> H. eapply init_dict_typed; eauto. intros k v [].
    Qed.
    Lemma run_typed os : forall h, typed struct G h -> Forall (op_typed asarray struct G) os -> typed struct G (fst (run h os)).
    Proof.
      induction os as [|o os IH]; intros h HT HO; cbn [State_Spec.run]; auto. inversion HO as [|x l H1 H2]; subst.
      pose proof (step_typed h o HT H1) as H3. destruct (step h o) as [h1 b]. cbn in H3.
      specialize (IH h1 H3 H2). destruct (run h1 os); auto.
    Qed.
  End Typed.

  (** Lens laws. *)
  Lemma substate_spec (h : heap) s m h' s' : state_substate h s m = (h', Ok s') ->
    exists d d', deref h s = Some d /\ deref h' s' = Some d' /\ s' = length h /\
      (forall x, x < length h -> deref h' x = deref h x) /\
      (forall k, dget d' k = if existsb (marker_eqb k) (markers m) then dget d k else None) /\
      (forall k, In k (keys d') <-> In k (markers m)) /\ NoDup (keys d').
  Proof.
    intros H. apply substate_ok in H as (d & d' & Hd & Hr & -> & ->). exists d, d'.
    apply restrict_ok in Hr as (H1 & H2 & H3). split; auto. split; [apply deref_new|]. split; auto.
    split; [intros; apply deref_app; auto|]. split; [auto|].
    split; [|apply H3; constructor].
    intros k. rewrite <- dget_In, H1. cbn. destruct (existsb (marker_eqb k) (markers m)) eqn:E.
    - apply existsb_exists in E as (k' & Hin & E). apply marker_eqb_spec in E. subst k'.
      rewrite dget_In. split; auto.
    - split; [congruence|]. intros Hin. exfalso. rewrite <- Bool.not_true_iff_false in E. apply E.
      apply existsb_exists. exists k. split; auto. apply marker_eqb_refl.
  Qed.
  Lemma substate_total (h : heap) s m d : deref h s = Some d ->
    (exists h' s', state_substate h s m = (h', Ok s')) /\ (forall k, In k (markers m) -> In k (keys d)) \/
    state_substate h s m = (h, Err KeyError) /\ exists k, In k (markers m) /\ ~ In k (keys d).
  Proof.
    intros Hd. unfold state_substate. rewrite Hd. destruct (restrict d (markers m) []) as [d'|e] eqn:E.
    - left. split; [unfold alloc; eauto|]. apply restrict_ok in E as (_ & H & _). auto.
    - right. apply restrict_err in E as (-> & H). auto.
  Qed.
  Lemma update_total (h : heap) s x d items : deref h s = Some d -> deref h x = Some items ->
    (exists h' s', state_update h s (Some x) = (h', Ok s')) /\ (forall k, In k (keys items) -> In k (keys d)) \/
    state_update h s (Some x) = (h, Err ValueError) /\ exists k, In k (keys items) /\ ~ In k (keys d).
  Proof.
    intros Hd Hi. unfold state_update. rewrite Hd, Hi. destruct (merge d items) as [d'|e] eqn:E.
    - left. split; [unfold alloc; eauto|]. apply dget_merge in E as (_ & _ & H). auto.
    - right. apply merge_err in E as (-> & H). auto.
  Qed.
  Lemma update_spec (h : heap) s x h' s' items : wf h -> state_update h s (Some x) = (h', Ok s') -> deref h x = Some items ->
    exists d d', deref h s = Some d /\ deref h' s' = Some d' /\ keys d' = keys d /\
      forall k, dget d' k = match dget items k with Some v => Some v | None => dget d k end.
  Proof.
    intros HW H Hi. apply update_ok in H as (d & s2 & it & d' & Hd & Hx & Hit & Hm & (_ & _ & _ & _ & H2 & _)).
    inv Hx. rewrite Hi in Hit; inv Hit. exists d, d'. split; auto. split; auto.
    apply dget_merge in Hm as (K & Gt & _). split; auto. intros k. rewrite Gt, last_write_dget; eauto.
  Qed.
  Lemma get_put (h : heap) s m h1 s1 : wf h -> state_substate h s m = (h1, Ok s1) ->
    exists d h2 s2, deref h s = Some d /\ state_update h1 s (Some s1) = (h2, Ok s2) /\ deref h2 s2 = Some d.
  Proof.
    intros HW H. pose proof (step_wf h (OSubstate s m) HW) as HW1. cbn [State_Spec.step] in HW1. rewrite H in HW1. cbn in HW1.
    apply substate_spec in H as (d & d' & Hd & Hd' & -> & Hx & Hg & Hk & Hn).
    pose proof (deref_lt _ _ _ Hd) as Hlt.
    assert (Hd1 : deref h1 s = Some d) by (rewrite Hx; auto).
    destruct (update_total h1 s (length h) d d' Hd1 Hd') as [[(h2 & s2 & Hu) _]|[_ (k & Hk1 & Hk2)]].
    - exists d, h2, s2. split; auto. split; auto.
      destruct (update_spec h1 s (length h) h2 s2 d' HW1 Hu Hd') as (d0 & d2 & E0 & E2 & K2 & G2).
      rewrite Hd1 in E0; inv E0. rewrite E2. f_equal. apply dict_ext; auto.
      + rewrite K2. eapply HW; eauto.
      + intros k. rewrite G2, Hg. destruct (existsb _ _); auto. destruct (dget d0 k); auto.
    - exfalso. apply dget_In in Hk1. rewrite Hg in Hk1. destruct (existsb _ _); [|congruence].
      apply Hk2, dget_In; auto.
  Qed.
  Lemma put_get (h : heap) s x items m h1 s1 : wf h -> deref h x = Some items -> (forall k, In k (markers m) <-> In k (keys items)) ->
    state_update h s (Some x) = (h1, Ok s1) ->
    exists h2 s2 d2, state_substate h1 s1 m = (h2, Ok s2) /\ deref h2 s2 = Some d2 /\ forall k, dget d2 k = dget items k.
  Proof.
    intros HW Hi Hm Hu. destruct (update_spec h s x h1 s1 items HW Hu Hi) as (d & d1 & Hd & Hd1 & K1 & G1).
    destruct (update_total h s x d items Hd Hi) as [[_ HK]|[E _]]; [|congruence].
    destruct (substate_total h1 s1 m d1 Hd1) as [[(h2 & s2 & Hs) _]|[_ (k & Hk1 & Hk2)]].
    - exists h2, s2. pose proof Hs as Hs'. apply substate_spec in Hs' as (d1' & d2 & E1 & E2 & _ & _ & Hg & _ & _).
      rewrite Hd1 in E1; inv E1. exists d2. split; auto. split; auto. intros k. rewrite Hg, G1.
      destruct (existsb (marker_eqb k) (markers m)) eqn:E.
      + apply existsb_exists in E as (k' & Hin & E). apply marker_eqb_spec in E. subst k'.
        apply Hm, dget_In in Hin. destruct (dget items k); congruence.
      + destruct (dget items k) eqn:Ek; auto. exfalso. rewrite <- Bool.not_true_iff_false in E. apply E.
        apply existsb_exists. exists k. split; [apply Hm, dget_In; congruence|apply marker_eqb_refl].
    - exfalso. apply Hk2. rewrite K1. apply HK, Hm. auto.
  Qed.
  (** Cloning by flatten and unflatten (the recipe in the error message). *)
  Lemma from_pairs_id (d : dict val) : NoDup (keys d) -> from_pairs [] d = d.
  Proof.
    assert (H : forall d acc : dict val, NoDup (keys (acc ++ d)) -> from_pairs acc d = acc ++ d).
    { clear. induction d as [|[k v] d IH]; intros acc HN; cbn; [rewrite app_nil_r; auto|].
      rewrite dset_new.
      - rewrite IH; rewrite <- app_assoc; auto.
      - destruct (dget acc k) eqn:E; auto. exfalso. unfold keys in HN. rewrite map_app in HN. cbn in HN.
        apply NoDup_remove_2 in HN. apply HN, in_or_app. left. apply dget_In. congruence. }
    apply (H d []).
  Qed.
  Lemma clone_spec (h : heap) s d : wf h -> deref h s = Some d ->
    exists vs ks h' s', state_flatten h s = Ok (vs, ks) /\ state_unflatten h ks vs = (h', Ok s') /\
      deref h' s' = Some d /\ s' <> s /\ forall x, x < length h -> deref h' x = deref h x.
  Proof.
    intros HW Hd. exists (map snd d), (keys d), (h ++ [Some d]), (length h).
    split; [unfold state_flatten; rewrite Hd; auto|]. split.
    - unfold state_unflatten, alloc, keys. rewrite !map_length, Nat.eqb_refl.
      assert (List.combine (map fst d) (map snd d) = d) as -> by (clear; induction d as [|[k v] d IH]; cbn; congruence).
      rewrite from_pairs_id; eauto.
    - split; [apply deref_new|]. split; [pose proof (deref_lt _ _ _ Hd); lia|]. intros; apply deref_app; auto.
  Qed.

  (** [make_with_state] *)
  Lemma renumber_spec (ls : list (tree (@mleaf L))) : forall c, length (renumber ls c) = length ls /\
    forall i l, nth_error ls i = Some l ->
      nth_error (renumber ls c) i = Some (match l with
        | Leaf (Idx _ v) => Leaf (Idx (MInt (c + num_idx (firstn i ls))) v)
        | _ => l end).
  Proof.
    induction ls as [|l ls IH]; intros c; cbn [renumber]; [split; auto; intros [|i] l; discriminate|].
    assert (HH : forall c', length (l :: renumber ls c') = length (l :: ls)) by (intros c'; cbn; f_equal; apply IH).
    destruct l as [[m v|o]| |k cs].
    - split; [cbn; f_equal; apply IH|]. intros [|i] l H; cbn in H |- *.
      + inv H. rewrite Nat.add_0_r. auto.
      + destruct (IH (Datatypes.S c)) as [_ I2]. rewrite (I2 i l H). destruct l as [[]| |]; auto.
        do 4 f_equal. lia.
    - split; [apply HH|]. intros [|i] l H; cbn in H |- *; [inv H; auto|]. destruct (IH c) as [_ I2]. rewrite (I2 i l H).
      destruct l as [[]| |]; auto.
    - split; [apply HH|]. intros [|i] l H; cbn in H |- *; [inv H; auto|]. destruct (IH c) as [_ I2]. rewrite (I2 i l H).
      destruct l as [[]| |]; auto.
    - split; [apply HH|]. intros [|i] l H; cbn in H |- *; [inv H; auto|]. destruct (IH c) as [_ I2]. rewrite (I2 i l H).
      destruct l as [[]| |]; auto.
  Qed.
  Lemma renumber_Leaf ls c : Forall is_Leaf ls -> Forall (@is_Leaf (@mleaf L)) (renumber ls c).
  Proof.
    intros H; revert c; induction H as [|l ls [a ->] _ IH]; intros c; cbn; [constructor|].
    destruct a; constructor; auto; eexists; eauto.
  Qed.
  Lemma delete_leaves (m : tree (@mleaf L)) : treedef no_leaf (delete_init_state m) = treedef no_leaf m /\
    leaves no_leaf (delete_init_state m) =
      map (fun l => match l with Leaf (Idx k _) => Leaf (Idx k None) | _ => l end) (leaves no_leaf m).
  Proof.
    unfold delete_init_state.
    induction m as [[k v|o]| |k cs IH] using tree_ind'; cbn; auto. split.
    - f_equal. rewrite map_map. apply map_ext_in. intros c Hc. rewrite Forall_forall in IH. apply IH; auto.
    - rewrite map_map. rewrite concat_map, map_map. f_equal. apply map_ext_in. intros c Hc.
      rewrite Forall_forall in IH. apply IH; auto.
  Qed.

  (** The state made from numbered leaves. *)
  Fixpoint number (c : nat) (vs : list val) : dict val :=
    match vs with [] => [] | v :: vs' => (MInt c, v) :: number (Datatypes.S c) vs' end.
  Lemma init_renumber (ls : list (tree (@mleaf L))) : Forall is_Leaf ls -> forall c acc, (forall k, In k (keys acc) -> exists n, k = MInt n /\ n < c) ->
    init_dict asarray (renumber ls c) acc =
    rmap (fun vs => acc ++ number c vs)
      (mapM (fun o => match o with Some v => as_arrays asarray v | None => Err ValueError end) (inits ls)).
  Proof.
    intros HL. induction HL as [|l ls [a ->] _ IH]; intros c acc HA; cbn [renumber inits mapM rmap].
    - cbn. rewrite app_nil_r; auto.
    - destruct a as [m v|o]; cbn [init_dict mapM].
      + destruct v as [v|]; cbn [bind rmap]; auto.
        destruct (as_arrays asarray v) as [v'|]; cbn [bind rmap]; auto.
        assert (HN : dget acc (MInt c) = None).
        { destruct (dget acc (MInt c)) eqn:E; auto. exfalso. destruct (HA (MInt c)) as (n & En & Hn); [apply dget_In; congruence|].
          inv En. lia. }
        rewrite dset_new by auto. rewrite IH.
        * destruct (mapM _ (inits ls)); cbn [bind rmap]; auto. cbn [number]. rewrite <- app_assoc. auto.
        * intros k Hk. unfold keys in Hk. rewrite map_app in Hk. apply in_app_iff in Hk as [Hk|[<-|[]]].
          -- destruct (HA k Hk) as (n & -> & Hn). exists n. split; auto; lia.
          -- exists c. auto.
      + rewrite IH; auto.
  Qed.
  Lemma inits_length ls : length (inits ls) = @num_idx L ls.
  Proof. induction ls as [|[[]| |] ls IH]; cbn; auto. Qed.

  Lemma make_spec (h : heap) (model : tree (@mleaf L)) h' m' s : make_with_state asarray h model = (h', Ok (m', s)) ->
    treedef no_leaf m' = treedef no_leaf model /\
    length (leaves no_leaf m') = length (leaves no_leaf model) /\
    (forall i l, nth_error (leaves no_leaf model) i = Some l ->
      nth_error (leaves no_leaf m') i = Some (match l with
        | Leaf (Idx _ _) => Leaf (Idx (MInt (num_idx (firstn i (leaves no_leaf model)))) None)
        | _ => l end)) /\
    exists vs, Forall2 (fun o v => exists u, o = Some u /\ as_arrays asarray u = Ok v) (inits (leaves no_leaf model)) vs /\
      h' = h ++ [Some (number 0 vs)] /\ s = length h.
  Proof.
    unfold make_with_state. destruct (unflatten _ _) as [m1|] eqn:Eu; [|discriminate].
    pose proof (leaves_are_Leaf model) as HLf.
    apply flatten_unflatten in Eu as [T1 L1]; [|apply renumber_Leaf; auto].
    unfold state_init. rewrite L1. rewrite init_renumber by (auto; intros k []).
    destruct (mapM _ (inits (leaves no_leaf model))) as [vs|] eqn:Em; cbn [rmap]; [|discriminate].
    cbn [app]. unfold alloc. intros H. injection H as <- <- <-.
    destruct (delete_leaves m1) as [T2 L2]. split; [congruence|].
    destruct (renumber_spec (leaves no_leaf model) 0) as [R1 R2].
    split; [rewrite L2, L1, map_length; auto|]. split.
    - intros i l Hl. rewrite L2, L1, nth_error_map, (R2 i l Hl). cbn. destruct l as [[]| |]; auto.
    - exists vs. split; auto. clear -Em. revert vs Em. induction (inits (leaves no_leaf model)) as [|o os IH]; intros vs Em; cbn in Em.
      + inv Em. constructor.
      + destruct o as [u|]; [|discriminate]. destruct (as_arrays asarray u) as [v|] eqn:Ev; cbn in Em; [|discriminate].
        destruct (mapM _ os) as [vs'|]; cbn in Em; [|discriminate]. inv Em. constructor; eauto.
  Qed.
  Lemma make_ok (h : heap) (model : tree (@mleaf L)) :
    (forall o, In o (inits (leaves no_leaf model)) -> exists u v, o = Some u /\ as_arrays asarray u = Ok v) ->
    exists h' m' s, make_with_state asarray h model = (h', Ok (m', s)).
  Proof.
    intros H. unfold make_with_state. pose proof (leaves_are_Leaf model) as HLf.
    destruct (unflatten_ok_iff (treedef no_leaf model) (renumber (leaves no_leaf model) 0)) as [_ U].
    destruct U as [m1 Eu].
    { rewrite slots_leaves. apply renumber_spec. }
    rewrite Eu. apply flatten_unflatten in Eu as [T1 L1]; [|apply renumber_Leaf; auto].
    unfold state_init. rewrite L1. rewrite init_renumber by (auto; intros k []).
    destruct (proj2 (mapM_ok_iff (fun o => match o with Some v => as_arrays asarray v | None => Err ValueError end)
      (inits (leaves no_leaf model)))) as [vs Em].
    { apply Forall_forall. intros o Ho. destruct (H o Ho) as (u & v & -> & Hv). eauto. }
    rewrite Em. cbn. unfold alloc. eauto.
  Qed.
  Lemma make_used (h : heap) (model : tree (@mleaf L)) :
    In None (inits (leaves no_leaf model)) ->
    (forall u, In (Some u) (inits (leaves no_leaf model)) -> exists v, as_arrays asarray u = Ok v) ->
    make_with_state asarray h model = (h, Err ValueError).
  Proof.
    intros HN HS. unfold make_with_state. pose proof (leaves_are_Leaf model) as HLf.
    destruct (unflatten_ok_iff (treedef no_leaf model) (renumber (leaves no_leaf model) 0)) as [_ U].
    destruct U as [m1 Eu].
    { rewrite slots_leaves. apply renumber_spec. }
    rewrite Eu. apply flatten_unflatten in Eu as [T1 L1]; [|apply renumber_Leaf; auto].
    unfold state_init. rewrite L1. rewrite init_renumber by (auto; intros k []).
    assert (mapM (fun o => match o with Some v => as_arrays asarray v | None => Err ValueError end)
      (inits (leaves no_leaf model)) = Err ValueError) as ->; auto.
    revert HN HS. induction (inits (leaves no_leaf model)) as [|o os IH]; intros HN HS; [inv HN|]. cbn.
    destruct o as [u|]; cbn; auto. destruct (HS u (or_introl eq_refl)) as [v ->]. cbn.
    rewrite IH; auto; [destruct HN; [discriminate|auto]|intros; apply HS; right; auto].
  Qed.

  (** Markers do not matter. *)
  Lemma forget_renumber (m : tree (@mleaf L)) : treedef no_leaf (forget m) = treedef no_leaf m /\
    leaves no_leaf (forget m) = map (fun l => match l with Leaf (Idx _ v) => Leaf (Idx (MInt 0) v) | _ => l end) (leaves no_leaf m).
  Proof.
    unfold forget. induction m as [[k v|o]| |k cs IH] using tree_ind'; cbn; auto. split.
    - f_equal. rewrite map_map. apply map_ext_in. intros c Hc. rewrite Forall_forall in IH. apply IH; auto.
    - rewrite map_map. rewrite concat_map, map_map. f_equal. apply map_ext_in. intros c Hc.
      rewrite Forall_forall in IH. apply IH; auto.
  Qed.
  Lemma renumber_forget ls : forall c, renumber (map (fun l => match l with Leaf (Idx _ v) => Leaf (Idx (MInt 0) v) | _ => l end) ls) c = @renumber L ls c.
  Proof. induction ls as [|[[]| |] ls IH]; intros c; cbn; auto; f_equal; auto. Qed.
  Lemma make_forget (h : heap) m : make_with_state asarray h m = make_with_state asarray h (forget m).
  Proof.
    unfold make_with_state. destruct (forget_renumber m) as [-> ->]. rewrite renumber_forget. auto.
  Qed.
End Heap.
