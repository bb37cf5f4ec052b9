(** C132: the caches of equinox. *)
From Coq Require Import Lia.
From Verif Require Import Base Lru_Model.
Local Open Scope nat_scope.
Local Open Scope list_scope.
Local Notation length := List.length.

Section Props.
  Variables (K V : Type) (keqb : K -> K -> bool).
  Hypothesis keqb_ok : forall a b, keqb a b = true <-> a = b.
  Variables (maxsize : nat -> option nat) (fn : nat -> K -> res V) (cache_clears : list nat).
  Notation cache := (cache K V).
  Notation event := (event K).
  Notation Call := (Call K).
  Notation Clear := (Clear K).
  Notation lru_call := (lru_call K V keqb).
  Notation result := (result K V keqb maxsize fn).
  Notation computed := (computed K V keqb maxsize fn).
  Notation step := (step K V keqb maxsize fn cache_clears).
  Notation after := (after K V keqb maxsize fn cache_clears).
  Notation tables := (tables K V).
  Notation next := (next K V).
  Definition ok (i : nat) (k : K) : Prop := exists v, fn i k = Ok v.

  Lemma keq_dec (a b : K) : {a = b} + {a <> b}.
  Proof. destruct (keqb a b) eqn:E; [left; apply keqb_ok; exact E|right; intros ->; assert (keqb b b = true) by (apply keqb_ok; reflexivity); congruence]. Qed.
  Lemma keqb_refl k : keqb k k = true.
  Proof. apply keqb_ok. reflexivity. Qed.
  Definition del (k : K) (l : list K) : list K := List.filter (fun x => negb (keqb k x)) l.
  Lemma in_del k x l : In x (del k l) <-> In x l /\ x <> k.
  Proof.
    unfold del. rewrite filter_In, negb_true_iff. split; intros [H1 H2]; (split; [exact H1|]).
    - intros ->. rewrite keqb_refl in H2. discriminate.
    - destruct (keqb k x) eqn:E; [|reflexivity]. apply keqb_ok in E. congruence.
  Qed.
  Lemma del_notin k l : ~ In k l -> del k l = l.
  Proof.
    induction l as [|x l IH]; intros H; [reflexivity|]. cbn [del List.filter]. destruct (keqb k x) eqn:E; [apply keqb_ok in E; subst; exfalso; apply H; left; reflexivity|].
    cbn [negb]. f_equal. apply IH. intros X. apply H. right. exact X.
  Qed.
  Lemma del_app k l l' : del k (l ++ l') = del k l ++ del k l'.
  Proof. apply filter_app. Qed.
  Lemma del_cons k l : del k (k :: l) = del k l.
  Proof. cbn [del List.filter]. rewrite keqb_refl. reflexivity. Qed.
  Lemma nodup_del k l : NoDup l -> NoDup (del k l).
  Proof. apply NoDup_filter. Qed.

  (** The keys of cache [i] in the order of their last use, the last first; histories are reversed. *)
  Fixpoint recency (i : nat) (r : list event) : list K :=
    match r with
    | [] => []
    | Lru_Model.Clear _ :: _ => []
    | Lru_Model.Call _ j k :: r => if Nat.eqb j i then match fn i k with Ok _ => k :: del k (recency i r) | Err _ => recency i r end else recency i r
    end.
  Lemma nodup_recency i r : NoDup (recency i r).
  Proof.
    induction r as [|[j k|] r IH]; cbn [recency]; try constructor. destruct (Nat.eqb j i); [|exact IH]. destruct (fn i k); [|exact IH].
    constructor; [rewrite in_del; tauto|apply nodup_del; exact IH].
  Qed.
  Lemma ok_recency i r k : In k (recency i r) -> ok i k.
  Proof.
    induction r as [|[j q|] r IH]; cbn [recency]; try (intros []; fail). destruct (Nat.eqb j i); [|exact IH]. destruct (fn i q) eqn:E; [|exact IH].
    intros [<-|H]; [eexists; exact E|]. apply in_del in H. apply IH. tauto.
  Qed.
  Lemma firstn_move m k l : NoDup l ->
    (In k (firstn m l) -> firstn m (k :: del k l) = k :: del k (firstn m l)) /\ (~ In k (firstn m l) -> firstn m (k :: del k l) = firstn m (k :: firstn m l)).
  Proof.
    intros N. split; intros H.
    - destruct m as [|m]; [destruct H|]. assert (Hl : In k l) by (rewrite <- (firstn_skipn (S m) l); apply in_or_app; left; exact H). apply in_split in Hl as (A & B & ->).
      apply NoDup_remove in N as [N1 N2]. assert (NA : ~ In k A) by (intros X; apply N2, in_or_app; left; exact X). assert (NB : ~ In k B) by (intros X; apply N2, in_or_app; right; exact X).
      assert (Lt : length A <= m). { destruct (le_lt_dec (length A) m) as [|G]; [assumption|]. exfalso. rewrite firstn_app in H. replace (S m - length A) with 0 in H by lia. rewrite app_nil_r in H. apply NA. rewrite <- (firstn_skipn (S m) A). apply in_or_app. left. exact H. }
      assert (D : del k (A ++ k :: B) = A ++ B) by (rewrite del_app, del_cons, (del_notin k A NA), (del_notin k B NB); reflexivity). rewrite D. rewrite firstn_cons. f_equal.
      rewrite !firstn_app, (firstn_all2 A), (firstn_all2 A) by lia. replace (S m - length A) with (S (m - length A)) by lia. rewrite firstn_cons, del_app, del_cons, (del_notin k A NA). f_equal. symmetry. apply del_notin.
      intros X. apply NB. rewrite <- (firstn_skipn (m - length A) B). apply in_or_app. left. exact X.
    - destruct m as [|m]; [reflexivity|]. rewrite !firstn_cons. f_equal.
      rewrite <- (firstn_skipn (S m) l) at 1. rewrite del_app, (del_notin k _ H), firstn_app. destruct (le_lt_dec (S m) (length l)) as [G|G].
      + rewrite firstn_length, Nat.min_l by lia. replace (m - S m) with 0 by lia. apply app_nil_r.
      + rewrite (skipn_all2 (n := S m) l) by lia. cbn [del List.filter]. rewrite firstn_nil. apply app_nil_r.
  Qed.

  Lemma find_in k (c : cache) : (exists e, find (fun e => keqb k (fst e)) c = Some e /\ fst e = k /\ In e c) \/ (find (fun e => keqb k (fst e)) c = None /\ ~ In k (map fst c)).
  Proof.
    destruct (find (fun e => keqb k (fst e)) c) as [e|] eqn:F.
    - left. exists e. apply find_some in F as [F1 F2]. apply keqb_ok in F2. auto.
    - right. split; [reflexivity|]. intros H. apply in_map_iff in H as (e & He & Hin). apply (find_none _ _ F) in Hin. rewrite He, keqb_refl in Hin. discriminate.
  Qed.
  Lemma map_filter_fst k (c : cache) : map fst (List.filter (fun e => negb (keqb k (fst e))) c) = del k (map fst c).
  Proof. induction c as [|e c IH]; [reflexivity|]. cbn [List.filter map del]. destruct (negb (keqb k (fst e))); cbn [map]; [f_equal|]; exact IH. Qed.
  Lemma map_trim {A B} (f : A -> B) m l : map f (trim m l) = trim m (map f l).
  Proof. destruct m; [symmetry; apply firstn_map|reflexivity]. Qed.
  Lemma clear_tables s i : tables (clear_caches K V cache_clears s) i = if existsb (Nat.eqb i) cache_clears then [] else tables s i.
  Proof.
    unfold clear_caches. cbn [Lru_Model.tables]. generalize (tables s). induction cache_clears as [|j l IH]; intros t; cbn [fold_left existsb]; [reflexivity|]. rewrite IH. unfold set.
    destruct (Nat.eqb i j); cbn [orb]; [destruct (existsb _ l); reflexivity|reflexivity].
  Qed.
  Lemma registered i : In i cache_clears -> existsb (Nat.eqb i) cache_clears = true.
  Proof. intros H. apply existsb_exists. exists i. split; [exact H|apply Nat.eqb_refl]. Qed.
  Lemma after_snoc h e : after (h ++ [e]) = step (after h) e.
  Proof. unfold Lru_Model.after. rewrite fold_left_app. reflexivity. Qed.
  (** Every entry holds the value of the function, and an object made before. *)
  Lemma entries h i : Forall (fun e => fn i (fst e) = Ok (fst (snd e)) /\ snd (snd e) < next (after h)) (tables (after h) i).
  Proof.
    induction h as [|e h IH] using rev_ind; [constructor|]. rewrite after_snoc. destruct e as [j k|]; cbn [Lru_Model.step].
    - unfold Lru_Model.lru_call. destruct (find_in k (tables (after h) j)) as [(e & F & Fk & Fi)|[F _]]; rewrite F.
      + cbn [Lru_Model.tables Lru_Model.next]. unfold set. destruct (Nat.eqb_spec i j) as [->|]; [|exact IH]. rewrite Forall_forall in IH. apply Forall_forall. intros x [<-|H]; [apply IH; exact Fi|]. apply filter_In in H as [H _]. apply IH. exact H.
      + destruct (fn j k) as [v|x] eqn:Ef; cbn [Lru_Model.tables Lru_Model.next]; unfold set.
        * assert (IH' : Forall (fun e => fn i (fst e) = Ok (fst (snd e)) /\ snd (snd e) < S (next (after h))) (tables (after h) i)) by (eapply Forall_impl; [|exact IH]; intros a [H1 H2]; split; [exact H1|lia]).
          destruct (Nat.eqb_spec i j) as [->|]; [|exact IH'].
          assert (C : Forall (fun e => fn j (fst e) = Ok (fst (snd e)) /\ snd (snd e) < S (next (after h))) ((k, (v, next (after h))) :: tables (after h) j)) by (constructor; [cbn; split; [exact Ef|lia]|exact IH']).
          destruct (maxsize j) as [m|]; [|exact C]. cbn [trim]. rewrite Forall_forall in C. apply Forall_forall. intros x H. apply C. rewrite <- (firstn_skipn m). apply in_or_app. left. exact H.
        * destruct (Nat.eqb_spec i j) as [->|]; exact IH.
    - rewrite clear_tables. destruct (existsb _ _); [constructor|exact IH].
  Qed.
  Lemma keys h i : In i cache_clears -> map fst (tables (after h) i) = trim (maxsize i) (recency i (rev h)).
  Proof.
    intros Hi. induction h as [|e h IH] using rev_ind; [destruct (maxsize i) as [[|m]|]; reflexivity|]. rewrite after_snoc, rev_app_distr. cbn [rev app]. destruct e as [j k|]; cbn [Lru_Model.step recency].
    - unfold Lru_Model.lru_call. destruct (Nat.eqb_spec j i) as [->|N].
      + pose proof (nodup_recency i (rev h)) as ND. destruct (find_in k (tables (after h) i)) as [(e & F & Fk & Fi)|[F Fn]]; rewrite F.
        * cbn [Lru_Model.tables]. unfold set. rewrite Nat.eqb_refl. cbn [map]. rewrite map_filter_fst, IH, Fk. assert (Hin : In k (trim (maxsize i) (recency i (rev h)))) by (rewrite <- IH, <- Fk; apply in_map; exact Fi).
          assert (Hok : ok i k). { apply (ok_recency i (rev h)). destruct (maxsize i) as [m|]; [|exact Hin]. cbn [trim] in Hin. rewrite <- (firstn_skipn m). apply in_or_app. left. exact Hin. }
          destruct Hok as [v ->]. destruct (maxsize i) as [m|]; [|reflexivity]. cbn [trim] in *. symmetry. apply firstn_move; assumption.
        * rewrite IH in Fn. destruct (fn i k) as [v|x]; cbn [Lru_Model.tables]; unfold set; rewrite Nat.eqb_refl; [|exact IH]. rewrite map_trim. cbn [map fst]. rewrite IH.
          destruct (maxsize i) as [m|]; cbn [trim] in *; [symmetry; apply firstn_move; assumption|]. f_equal. symmetry. apply del_notin. exact Fn.
      + destruct (find (fun e => keqb k (fst e)) (tables (after h) j)) as [e|]; [|destruct (fn j k)]; cbn [Lru_Model.tables]; unfold set; destruct (Nat.eqb_spec i j); try congruence; exact IH.
    - rewrite clear_tables, registered by exact Hi. destruct (maxsize i) as [[|m]|]; reflexivity.
  Qed.

  Lemma filter_le {A} (f : A -> bool) l : length (List.filter f l) <= length l.
  Proof. induction l as [|a l IH]; [reflexivity|]. cbn [List.filter]. destruct (f a); cbn [List.length]; lia. Qed.

  (** A call gives what the function gives, whatever was called or cleared before. *)
  Theorem C132_transparent : forall h i k, rmap fst (result (after h) i k) = fn i k.
  Proof.
    intros h i k. unfold Lru_Model.result, Lru_Model.lru_call. destruct (find_in k (tables (after h) i)) as [(e & F & Fk & Fi)|[F _]]; rewrite F; cbn [fst].
    - pose proof (entries h i) as E. rewrite Forall_forall in E. destruct (E e Fi) as [E1 _]. rewrite Fk in E1. rewrite E1. reflexivity.
    - destruct (fn i k); reflexivity.
  Qed.
  (** No cache has more entries than its limit. *)
  Theorem C132_bounded : forall h i m, maxsize i = Some m -> length (tables (after h) i) <= m.
  Proof.
    intros h i m Hm. induction h as [|e h IH] using rev_ind; [cbn; lia|]. rewrite after_snoc. destruct e as [j k|]; cbn [Lru_Model.step].
    - unfold Lru_Model.lru_call. destruct (find_in k (tables (after h) j)) as [(e & F & Fk & Fi)|[F _]]; rewrite F.
      + cbn [Lru_Model.tables]. unfold set. destruct (Nat.eqb_spec i j) as [->|]; [|exact IH]. cbn [length]. apply in_split in Fi as (A & B & E). rewrite E in IH |- *. rewrite filter_app, app_length in *. cbn [List.filter length] in *.
        rewrite Fk, keqb_refl. cbn [negb]. pose proof (filter_le (fun e => negb (keqb k (fst e))) A). pose proof (filter_le (fun e => negb (keqb k (fst e))) B). lia.
      + destruct (fn j k); cbn [Lru_Model.tables]; unfold set; destruct (Nat.eqb_spec i j) as [->|]; try exact IH. rewrite Hm. cbn [trim]. apply firstn_le_length.
    - rewrite clear_tables. destruct (existsb _ _); [cbn; lia|exact IH].
  Qed.
  (** [clear_caches] puts back the start for all registered caches, and does nothing to others. *)
  Theorem C132_clear : forall h i, tables (after (h ++ [Clear])) i = if existsb (Nat.eqb i) cache_clears then [] else tables (after h) i.
  Proof. intros h i. rewrite after_snoc. apply clear_tables. Qed.

  Lemma recency_split i : forall r A k B, recency i r = A ++ k :: B ->
    exists r2 r1, r = r2 ++ Call i k :: r1 /\ ~ In Clear r2 /\ ~ In (Call i k) r2 /\ forall x, In x A <-> In (Call i x) r2 /\ ok i x.
  Proof.
    induction r as [|[j q|] r IH]; intros A k B E; cbn [recency] in E; try (destruct A; discriminate).
    assert (Skip : recency i r = A ++ k :: B -> (j = i -> ~ ok i q) -> exists r2 r1, Call j q :: r = r2 ++ Call i k :: r1 /\ ~ In Clear r2 /\ ~ In (Call i k) r2 /\ forall x, In x A <-> In (Call i x) r2 /\ ok i x).
    { intros E' Nq. pose proof (ok_recency i r k ltac:(rewrite E'; apply in_elt)) as Ok. destruct (IH A k B E') as (r2 & r1 & -> & H1 & H2 & H3). exists (Call j q :: r2), r1. split; [reflexivity|].
      split; [intros [X|X]; [discriminate|exact (H1 X)]|]. split; [intros [X|X]; [injection X as -> ->; exact (Nq eq_refl Ok)|exact (H2 X)]|]. intros x. rewrite H3. split; intros [X1 X2]; (split; [|exact X2]); [right; exact X1|].
      destruct X1 as [X1|X1]; [injection X1 as -> ->; exfalso; exact (Nq eq_refl X2)|exact X1]. }
    destruct (Nat.eqb_spec j i) as [->|N]; [|apply Skip; [exact E|congruence]]. destruct (fn i q) as [v|x] eqn:Eq; [|apply Skip; [exact E|intros _ [v Hv]; congruence]]. clear Skip.
    destruct A as [|a A]; cbn [app] in E; injection E as <- E.
    - exists [], r. split; [reflexivity|]. split; [tauto|]. split; [tauto|]. intros x. cbn. tauto.
    - assert (Hk : In k (recency i r) /\ k <> q) by (apply in_del; rewrite E; apply in_elt). destruct Hk as [Hk Nk]. apply in_split in Hk as (A' & B' & E').
      assert (ND : NoDup (del q (recency i r))) by apply nodup_del, nodup_recency.
      assert (S : A = del q A').
      { rewrite E' in E, ND. rewrite del_app in E, ND. assert (Dk : del q (k :: B') = k :: del q B') by (cbn [del List.filter]; destruct (keqb q k) eqn:X; [apply keqb_ok in X; congruence|reflexivity]). rewrite Dk in E, ND. clear - E ND.
        revert A E. set (P := del q A') in *. clearbody P. induction P as [|p P IHP]; intros A E; cbn [app] in *.
        - destruct A as [|a A]; [reflexivity|]. cbn [app] in E. injection E as <- E. exfalso. inversion ND as [|? ? ND1 ND2]; subst. apply ND1. rewrite E. apply in_elt.
        - destruct A as [|a A]; cbn [app] in E; injection E as -> E; [exfalso; inversion ND as [|? ? ND1 ND2]; subst; apply ND1; apply in_elt|]. f_equal. inversion ND; subst. apply IHP; assumption. }
      destruct (IH A' k B' E') as (r2 & r1 & -> & H1 & H2 & H3). exists (Call i q :: r2), r1. split; [reflexivity|]. split; [intros [X|X]; [discriminate|exact (H1 X)]|].
      split; [intros [X|X]; [injection X as X; congruence|exact (H2 X)]|]. intros x. cbn [In]. rewrite S, in_del, H3. destruct (keq_dec x q) as [->|Nx].
      + split; intros _; [split; [left; reflexivity|exists v; exact Eq]|left; reflexivity].
      + split; [intros [X|[[X1 X2] _]]; [congruence|split; [right; exact X1|exact X2]]|]. intros [[X|X] X2]; [injection X as X; congruence|right; tauto].
  Qed.
  Lemma recency_found i k r1 : ok i k -> forall r2, ~ In Clear r2 -> ~ In (Call i k) r2 ->
    exists A B, recency i (r2 ++ Call i k :: r1) = A ++ k :: B /\ forall x, In x A -> In (Call i x) r2 /\ ok i x.
  Proof.
    intros [v Hv] r2. induction r2 as [|[j q|] r2 IH]; intros H1 H2; cbn [app recency].
    - rewrite Nat.eqb_refl, Hv. exists [], (del k (recency i r1)). split; [reflexivity|intros x []].
    - destruct IH as (A & B & E & H); [intros X; apply H1; right; exact X|intros X; apply H2; right; exact X|]. rewrite E.
      assert (Skip : exists A0 B0, A ++ k :: B = A0 ++ k :: B0 /\ forall x, In x A0 -> In (Call i x) (Call j q :: r2) /\ ok i x) by (exists A, B; split; [reflexivity|]; intros x Hx; destruct (H x Hx); split; [right; assumption|assumption]).
      destruct (Nat.eqb_spec j i) as [->|]; [|exact Skip]. destruct (fn i q) as [w|] eqn:Eq; [|exact Skip]. clear Skip.
      assert (N : q <> k) by (intros ->; apply H2; left; reflexivity). exists (q :: del q A), (del q B). split.
      + rewrite del_app. cbn [app]. do 2 f_equal. cbn [del List.filter]. destruct (keqb q k) eqn:X; [apply keqb_ok in X; congruence|reflexivity].
      + intros x [<-|Hx]; [split; [left; reflexivity|exists w; exact Eq]|]. apply in_del in Hx as [Hx _]. destruct (H x Hx). split; [right|]; assumption.
    - exfalso. apply H1. left. reflexivity.
  Qed.
  (** Exactly when a call does not call the function: if there was an earlier call with these arguments that gave a value, no [clear_caches] since then,
      and fewer than [maxsize] other arguments since the last of these calls (not counting those for which the function raised). *)
  Theorem C132_hit : forall h i k, In i cache_clears ->
    (computed (after h) i k = false <->
     ok i k /\ exists h1 h2, h = h1 ++ Call i k :: h2 /\ ~ In Clear h2 /\ ~ In (Call i k) h2 /\
       forall m, maxsize i = Some m -> forall ks, NoDup ks -> (forall x, In x ks -> In (Call i x) h2 /\ ok i x) -> length ks < m).
  Proof.
    intros h i k Hi. pose proof (keys h i Hi) as Hk.
    assert (C : computed (after h) i k = false <-> In k (trim (maxsize i) (recency i (rev h)))).
    { rewrite <- Hk. unfold Lru_Model.computed, Lru_Model.lru_call. destruct (find_in k (tables (after h) i)) as [(e & F & Fk & Fi)|[F Fn]]; rewrite F; cbn [snd].
      - split; [intros _; rewrite <- Fk; apply in_map; exact Fi|reflexivity].
      - split; [destruct (fn i k); discriminate|contradiction]. }
    rewrite C. clear C Hk. split.
    - intros H. assert (HL : In k (recency i (rev h))) by (destruct (maxsize i) as [m|]; [|exact H]; cbn [trim] in H; rewrite <- (firstn_skipn m); apply in_or_app; left; exact H).
      split; [eapply ok_recency; exact HL|]. apply in_split in HL as (A & B & E). destruct (recency_split i (rev h) A k B E) as (r2 & r1 & Er & H1 & H2 & H3).
      exists (rev r1), (rev r2). split; [rewrite <- (rev_involutive h), Er, rev_app_distr; cbn [rev]; rewrite <- app_assoc; reflexivity|]. split; [rewrite <- in_rev; exact H1|]. split; [rewrite <- in_rev; exact H2|].
      intros m Hm ks NK Hks. rewrite Hm in H. cbn [trim] in H. pose proof (nodup_recency i (rev h)) as ND. rewrite E in H, ND.
      assert (LA : length A < m).
      { destruct (le_lt_dec m (length A)) as [G|]; [|assumption]. exfalso. rewrite firstn_app in H. replace (m - length A) with 0 in H by lia. rewrite app_nil_r in H. apply NoDup_remove_2 in ND. apply ND, in_or_app. left. rewrite <- (firstn_skipn m A). apply in_or_app. left. exact H. }
      assert (length ks <= length A); [|lia]. apply NoDup_incl_length; [exact NK|]. intros x Hx. apply H3. destruct (Hks x Hx) as [X1 X2]. split; [rewrite <- in_rev in X1; exact X1|exact X2].
    - intros [Hok (h1 & h2 & -> & H1 & H2 & H3)]. rewrite rev_app_distr. cbn [rev]. rewrite <- app_assoc. cbn [app].
      destruct (recency_found i k (rev h1) Hok (rev h2)) as (A & B & E & HA); [rewrite <- in_rev; exact H1|rewrite <- in_rev; exact H2|]. pose proof (nodup_recency i (rev h2 ++ Call i k :: rev h1)) as ND. rewrite E in *.
      destruct (maxsize i) as [m|]; cbn [trim]; [|apply in_elt]. assert (LA : length A < m).
      { apply (H3 m eq_refl); [apply NoDup_remove_1 in ND; clear - ND; induction A as [|a A IH]; constructor; cbn [app] in ND; inversion ND; subst; [intros X; apply H1, in_or_app; left; exact X|apply IH; assumption]|]. intros x Hx. destruct (HA x Hx) as [X1 X2]. split; [rewrite in_rev; exact X1|exact X2]. }
      rewrite firstn_app. apply in_or_app. right. replace (m - length A) with (S (m - length A - 1)) by lia. left. reflexivity.
  Qed.
  (** After [clear_caches] a registered cache is as in a new process. *)
  Theorem C132_fresh : forall h1 h2 i k, In i cache_clears -> computed (after (h1 ++ Clear :: h2)) i k = computed (after h2) i k /\ map fst (tables (after (h1 ++ Clear :: h2)) i) = map fst (tables (after h2) i).
  Proof.
    intros h1 h2 i k Hi. assert (E : map fst (tables (after (h1 ++ Clear :: h2)) i) = map fst (tables (after h2) i)).
    { rewrite !keys by exact Hi. f_equal. rewrite rev_app_distr. cbn [rev]. rewrite <- app_assoc. cbn [app]. induction (rev h2) as [|[j q|] r IH]; cbn [app recency]; [reflexivity| |reflexivity]. rewrite IH. reflexivity. }
    split; [|exact E]. unfold Lru_Model.computed, Lru_Model.lru_call. destruct (find_in k (tables (after (h1 ++ Clear :: h2)) i)) as [(e & F & Fk & Fi)|[F Fn]], (find_in k (tables (after h2) i)) as [(e' & F' & Fk' & Fi')|[F' Fn']]; rewrite F, F'; cbn [snd]; try reflexivity.
    - exfalso. apply Fn'. rewrite <- E, <- Fk. apply in_map. exact Fi.
    - exfalso. apply Fn. rewrite E, <- Fk'. apply in_map. exact Fi'.
    - destruct (fn i k); reflexivity.
  Qed.
  Lemma event_dec (x y : event) : {x = y} + {x <> y}.
  Proof. decide equality; [apply keq_dec|apply Nat.eq_dec]. Qed.
  Lemma last_call i k l : In (Call i k) l -> exists a b, l = a ++ Call i k :: b /\ ~ In (Call i k) b.
  Proof.
    induction l as [|y l IH]; [intros []|]. intros J. destruct (in_dec event_dec (Call i k) l) as [Z|Z].
    - destruct (IH Z) as (a & b & -> & Hb). exists (y :: a), b. split; [reflexivity|exact Hb].
    - destruct J as [->|J]; [|contradiction]. exists [], l. split; [reflexivity|exact Z].
  Qed.
  (** Without a limit: the function is called again only after [clear_caches], or if it raised. *)
  Theorem C132_unlimited : forall h i k, In i cache_clears -> maxsize i = None ->
    (computed (after h) i k = false <-> ok i k /\ exists h1 h2, h = h1 ++ Call i k :: h2 /\ ~ In Clear h2).
  Proof.
    intros h i k Hi Hm. rewrite C132_hit by exact Hi. split.
    - intros [Hok (h1 & h2 & -> & H1 & H2)]. split; [exact Hok|]. exists h1, h2. split; [reflexivity|exact H1].
    - intros [Hok (h1 & h2 & -> & H1)]. split; [exact Hok|]. destruct (last_call i k (Call i k :: h2)) as (a & b & E & Hb); [left; reflexivity|]. exists (h1 ++ a), b. rewrite E, app_assoc. split; [reflexivity|].
      split; [|split; [exact Hb|congruence]]. intros X. assert (Y : In Clear (Call i k :: h2)) by (rewrite E; apply in_or_app; right; right; exact X). destruct Y as [Y|Y]; [discriminate|exact (H1 Y)].
  Qed.

  (** An object that is kept is returned itself: until it is dropped, equal arguments give the same object. *)
  Lemma find_filter k q (c : cache) : k <> q -> find (fun e => keqb k (fst e)) (List.filter (fun e => negb (keqb q (fst e))) c) = find (fun e => keqb k (fst e)) c.
  Proof.
    intros N. induction c as [|e c IH]; [reflexivity|]. cbn [List.filter find]. destruct (keqb q (fst e)) eqn:E; cbn [negb find].
    - apply keqb_ok in E. destruct (keqb k (fst e)) eqn:F; [apply keqb_ok in F; congruence|exact IH].
    - destruct (keqb k (fst e)); [reflexivity|exact IH].
  Qed.
  Lemma find_firstn k m (c : cache) e e' : find (fun e => keqb k (fst e)) c = Some e -> find (fun e => keqb k (fst e)) (firstn m c) = Some e' -> e' = e.
  Proof. revert m. induction c as [|x c IH]; intros [|m] H H'; try discriminate. cbn [find firstn] in *. destruct (keqb k (fst x)); [congruence|]. eapply IH; eassumption. Qed.
  Lemma kept s e i k x x' : e <> Clear -> find (fun e => keqb k (fst e)) (tables s i) = Some x -> find (fun e => keqb k (fst e)) (tables (step s e) i) = Some x' -> x' = x.
  Proof.
    intros Ne F F'. destruct e as [j q|]; [|congruence]. cbn [Lru_Model.step] in F'. unfold Lru_Model.lru_call in F'. destruct (find (fun e => keqb q (fst e)) (tables s j)) as [y|] eqn:Fq.
    - cbn [Lru_Model.tables] in F'. unfold set in F'. destruct (Nat.eqb_spec i j) as [->|]; [|congruence]. cbn [find] in F'. pose proof (find_some _ _ Fq) as [_ Ky]. apply keqb_ok in Ky. destruct (keqb k (fst y)) eqn:Kk.
      + apply keqb_ok in Kk. subst. rewrite Fq in F. congruence.
      + rewrite find_filter in F' by (intros ->; rewrite <- Ky, keqb_refl in Kk; discriminate). congruence.
    - destruct (fn j q) as [v|]; cbn [Lru_Model.tables] in F'; unfold set in F'; (destruct (Nat.eqb_spec i j) as [->|]; [|congruence]); [|congruence].
      assert (X : find (fun e => keqb k (fst e)) ((q, (v, next s)) :: tables s j) = Some x). { cbn [find fst]. destruct (keqb k q) eqn:Kk; [apply keqb_ok in Kk; subst; congruence|exact F]. }
      destruct (maxsize j) as [m|]; cbn [trim] in F'; [eapply find_firstn; eassumption|congruence].
  Qed.
  Theorem C132_same_object : forall h1 h2 i k o, In i cache_clears -> result (after h1) i k = Ok o -> ~ In Clear h2 ->
    (forall m, maxsize i = Some m -> forall ks, NoDup ks -> (forall x, In x ks -> x <> k /\ In (Call i x) h2 /\ ok i x) -> length ks < m) ->
    result (after (h1 ++ Call i k :: h2)) i k = Ok o.
  Proof.
    intros h1 h2 i k o Hi Hr. assert (Hok : ok i k). { pose proof (C132_transparent h1 i k) as T. rewrite Hr in T. cbn in T. exists (fst o). congruence. }
    assert (Hit : forall h2, ~ In Clear h2 -> (forall m, maxsize i = Some m -> forall ks, NoDup ks -> (forall x, In x ks -> x <> k /\ In (Call i x) h2 /\ ok i x) -> length ks < m) ->
      exists x, find (fun e => keqb k (fst e)) (tables (after (h1 ++ Call i k :: h2)) i) = Some x).
    { intros h HC HM. assert (C : computed (after (h1 ++ Call i k :: h)) i k = false).
      { apply C132_hit; [exact Hi|]. split; [exact Hok|].
        assert (L : exists a b, Call i k :: h = a ++ Call i k :: b /\ ~ In (Call i k) b /\ incl b h).
        { destruct (last_call i k (Call i k :: h)) as (a & b & E & Hb); [left; reflexivity|]. exists a, b. split; [exact E|]. split; [exact Hb|]. destruct a as [|y a]; cbn [app] in E; [injection E as ->; intros x Hx; exact Hx|].
          injection E as _ ->. intros x Hx. apply in_or_app. right. right. exact Hx. }
        destruct L as (a & b & E & N & I). exists (h1 ++ a), b. split; [rewrite E, app_assoc; reflexivity|]. split; [intros X; exact (HC (I _ X))|]. split; [exact N|]. intros m Hm ks NK Hks. apply (HM m Hm ks NK). intros x Hx. destruct (Hks x Hx) as [X1 X2].
        split; [intros ->; exact (N X1)|]. split; [exact (I _ X1)|exact X2]. }
      unfold Lru_Model.computed, Lru_Model.lru_call in C. destruct (find (fun e => keqb k (fst e)) (tables (after (h1 ++ Call i k :: h)) i)) as [x|]; [exists x; reflexivity|]. destruct (fn i k); discriminate. }
    assert (G : forall h2, ~ In Clear h2 -> (forall m, maxsize i = Some m -> forall ks, NoDup ks -> (forall x, In x ks -> x <> k /\ In (Call i x) h2 /\ ok i x) -> length ks < m) ->
      exists x, find (fun e => keqb k (fst e)) (tables (after (h1 ++ Call i k :: h2)) i) = Some x /\ snd x = o).
    { induction h0 as [|e h IH] using rev_ind; intros HC HM.
      - destruct (Hit [] HC HM) as [x Hx]. exists x. split; [exact Hx|]. rewrite after_snoc in Hx. cbn [Lru_Model.step] in Hx. unfold Lru_Model.result in Hr. unfold Lru_Model.lru_call in Hx, Hr. destruct (find (fun e => keqb k (fst e)) (tables (after h1) i)) as [y|] eqn:Fy.
        + cbn [Lru_Model.tables fst] in *. unfold set in Hx. rewrite Nat.eqb_refl in Hx. cbn [find] in Hx. apply find_some in Fy as [_ Ky]. rewrite Ky in Hx. congruence.
        + destruct Hok as [v Hv]. rewrite Hv in Hx, Hr. cbn [Lru_Model.tables fst] in *. unfold set in Hx. rewrite Nat.eqb_refl in Hx. injection Hr as <-. destruct (maxsize i) as [[|m]|]; cbn [trim firstn find fst] in Hx; [discriminate| |]; rewrite keqb_refl in Hx; injection Hx as <-; reflexivity.
      - assert (HC' : ~ In Clear h) by (intros X; apply HC, in_or_app; left; exact X).
        assert (HM' : forall m, maxsize i = Some m -> forall ks, NoDup ks -> (forall x, In x ks -> x <> k /\ In (Call i x) h /\ ok i x) -> length ks < m).
        { intros m Hm ks NK Hks. apply (HM m Hm ks NK). intros x Hx. destruct (Hks x Hx) as (X1 & X2 & X3). split; [exact X1|]. split; [apply in_or_app; left; exact X2|exact X3]. }
        destruct (IH HC' HM') as (y & Hy & Ho). destruct (Hit (h ++ [e]) HC HM) as [x Hx]. exists x. split; [exact Hx|]. rewrite <- Ho. f_equal.
        change (h1 ++ Call i k :: h ++ [e]) with (h1 ++ (Call i k :: h) ++ [e]) in Hx. rewrite app_assoc, after_snoc in Hx. eapply kept; [|exact Hy|exact Hx]. intros ->. apply HC, in_or_app. right. left. reflexivity. }
    intros HC HM. destruct (G h2 HC HM) as (x & Hx & Ho). unfold Lru_Model.result, Lru_Model.lru_call. rewrite Hx. cbn [fst]. rewrite Ho. reflexivity.
  Qed.
  (** A computed object is a new one. *)
  Lemma next_mono h h' : next (after h) <= next (after (h ++ h')).
  Proof.
    induction h' as [|e h' IH] using rev_ind; [rewrite app_nil_r; lia|]. rewrite app_assoc, after_snoc. etransitivity; [exact IH|]. destruct e as [j q|]; cbn [Lru_Model.step]; [|cbn; lia].
    unfold Lru_Model.lru_call. destruct (find _ _); [cbn; lia|]. destruct (fn j q); cbn; lia.
  Qed.
  Theorem C132_new_object : forall h1 j q h2 i k v n v' n', result (after h1) j q = Ok (v, n) -> computed (after (h1 ++ Call j q :: h2)) i k = true ->
    result (after (h1 ++ Call j q :: h2)) i k = Ok (v', n') -> n < n'.
  Proof.
    intros h1 j q h2 i k v n v' n' H C H'. assert (L : n < next (after (h1 ++ [Call j q]))).
    { rewrite after_snoc. cbn [Lru_Model.step]. unfold Lru_Model.result in H. unfold Lru_Model.lru_call in *. pose proof (entries h1 j) as E. destruct (find (fun e => keqb q (fst e)) (tables (after h1) j)) as [y|] eqn:F.
      - cbn [fst Lru_Model.next] in *. apply find_some in F as [F _]. rewrite Forall_forall in E. destruct (E y F) as [_ E2]. injection H as H. rewrite H in E2. exact E2.
      - destruct (fn j q); cbn [fst Lru_Model.next] in *; [|discriminate]. injection H as <- <-. lia. }
    pose proof (next_mono (h1 ++ [Call j q]) h2) as M. rewrite <- app_assoc in M. cbn [app] in M. unfold Lru_Model.result, Lru_Model.computed in *. unfold Lru_Model.lru_call in *. destruct (find (fun e => keqb k (fst e)) (tables (after (h1 ++ Call j q :: h2)) i)); [discriminate|].
    destruct (fn i k); cbn [fst] in H'; [|discriminate]. injection H' as <- <-. lia.
  Qed.
End Props.
Print Assumptions C132_transparent.
Print Assumptions C132_bounded.
Print Assumptions C132_clear.
Print Assumptions C132_hit.
Print Assumptions C132_fresh.
Print Assumptions C132_unlimited.
Print Assumptions C132_same_object.
Print Assumptions C132_new_object.

(** Two caches, of at most two entries and without a limit; the second raises for 0. *)
Example C132_ex : let f i k := if Nat.eqb i 1 && Nat.eqb k 0 then Err ValueError else Ok (10 * k) in let ms i := if Nat.eqb i 0 then Some 2 else None in
  let run := after nat nat Nat.eqb ms f [0; 1] in let new h i k := computed nat nat Nat.eqb ms f (run h) i k in
  new [] 0 5 = true /\ new [Call nat 0 5; Call nat 0 6] 0 5 = false /\ new [Call nat 0 5; Call nat 0 6; Call nat 0 5; Call nat 0 7] 0 5 = false /\
  new [Call nat 0 5; Call nat 0 6; Call nat 0 7] 0 5 = true /\ new [Call nat 1 5; Call nat 1 6; Call nat 1 7] 1 5 = false /\ new [Call nat 1 0] 1 0 = true /\
  new [Call nat 1 5; Clear nat] 1 5 = true.
Proof. repeat split. Qed.
(** Objects: kept, and made again after they were dropped. *)
Example C132_ex_object : let ms i := if Nat.eqb i 0 then Some 2 else None in let f (i k : nat) := Ok (10 * k) in
  let run := after nat nat Nat.eqb ms f [0; 1] in let get h := result nat nat Nat.eqb ms f (run h) 0 5 in
  get [] = Ok (50, 0) /\ get [Call nat 0 5; Call nat 0 6] = Ok (50, 0) /\ get [Call nat 0 5; Call nat 0 6; Call nat 0 7] = Ok (50, 3) /\
  get [Call nat 0 5; Clear nat] = Ok (50, 1) /\ tables nat nat (run [Call nat 0 5; Call nat 0 6; Call nat 0 7]) 0 = [(7, (70, 2)); (6, (60, 1))].
Proof. repeat split. Qed.
