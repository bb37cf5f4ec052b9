(** Counting evaluations of a bounded loop: proofs. *)
From Verif Require Import Base BoundedCost_Model BoundedCost_Spec Loop_Model.
Local Open Scope nat_scope.

Lemma tests_app {S} (a b : list (event S)) : tests (a ++ b) = tests a + tests b.
Proof. unfold tests. rewrite filter_app, app_length. reflexivity. Qed.
Lemma bodies_app {S} (a b : list (event S)) : bodies (a ++ b) = bodies a + bodies b.
Proof. unfold bodies. rewrite filter_app, app_length. reflexivity. Qed.
Lemma vjps_app {S} (a b : list (event S)) : vjps (a ++ b) = vjps a ++ vjps b.
Proof. induction a as [|[| |s| |] a IH]; cbn; rewrite ?IH; reflexivity. Qed.
Lemma vjps_flat {S A} (g : A -> list (event S)) l : vjps (flat_map g l) = flat_map (fun a => vjps (g a)) l.
Proof. induction l as [|a l IH]; cbn; [reflexivity|]. rewrite vjps_app, IH. reflexivity. Qed.
Lemma bodies_flat {S A} (g : A -> list (event S)) l : bodies (flat_map g l) = list_sum (map (fun a => bodies (g a)) l).
Proof. induction l as [|a l IH]; [reflexivity|]; cbn [flat_map map list_sum fold_right]. rewrite bodies_app, IH. reflexivity. Qed.
Lemma flat_map_rev {A B} (g : A -> list B) l : flat_map g (rev l) = rev (flat_map (fun a => rev (g a)) l).
Proof. induction l as [|a l IH]; cbn; [reflexivity|]. rewrite flat_map_app, IH. cbn. rewrite app_nil_r, rev_app_distr, rev_involutive. reflexivity. Qed.
Lemma sum_rev l : list_sum (rev l) = list_sum l.
Proof. induction l as [|a l IH]; cbn; [reflexivity|]. rewrite list_sum_app, IH. unfold list_sum; cbn. lia. Qed.

Lemma cdiv_add q x b : 0 < b -> cdiv (q * b + x) b = q + cdiv x b.
Proof. intros H. unfold cdiv. rewrite <- Nat.add_assoc. apply Nat.div_add_l. lia. Qed.
Lemma cdiv_0 b : 0 < b -> cdiv 0 b = 0.
Proof. intros H. unfold cdiv. apply Nat.div_small. lia. Qed.
Lemma cdiv_1 m b : 1 <= m <= b -> cdiv m b = 1.
Proof. intros H. unfold cdiv. symmetry. apply (Nat.div_unique _ _ 1 (m - 1)); lia. Qed.
Lemma levels_add base d : 0 < base -> forall q x, levels base d (q * base ^ d + x) = levels base d (q * base ^ d) + levels base d x.
Proof.
  intros Hb. induction d as [|d IH]; intros q x; [reflexivity|]. cbn [levels].
  assert (0 < base ^ S d) by (apply Nat.neq_0_lt_0, Nat.pow_nonzero; lia).
  rewrite cdiv_add by auto. rewrite <- (Nat.add_0_r (q * base ^ S d)) at 3. rewrite cdiv_add, cdiv_0 by auto.
  replace (q * base ^ S d) with (q * base * base ^ d) by (cbn; lia). rewrite IH. lia.
Qed.
Lemma levels_0 base d : 0 < base -> levels base d 0 = 0.
Proof. intros Hb. induction d as [|d IH]; [reflexivity|]. cbn [levels]. rewrite IH, cdiv_0; [reflexivity|]. apply Nat.neq_0_lt_0, Nat.pow_nonzero; lia. Qed.

Section Cost.
  Context {S : Type}.
  Variables (c : S -> bool) (f : S -> S) (base : nat).
  Hypothesis Hb : 0 < base.
  Local Notation run := (run c f base).
  Local Notation forwards := (forwards c f base).
  Local Notation backwards := (backwards c f base).
  Local Notation steps := (steps c f).
  Definition iter (d : nat) (s : S) : list (event S) * S := if c s then let '(e, s') := run d s in (Test :: e, s') else ([Test], s).

  Lemma pow_pos d : 0 < base ^ d.
  Proof. apply Nat.neq_0_lt_0, Nat.pow_nonzero. lia. Qed.
  Lemma times_add n m s : times (n + m) f s = times m f (times n f s).
  Proof. revert s. induction n as [|n IH]; intros s; [reflexivity|]. apply IH. Qed.
  Lemma steps_skip s n m : steps s n -> m <= n -> steps (times m f s) (n - m).
  Proof.
    intros [H1 H2] Hm. split.
    - intros k Hk. rewrite <- times_add. apply H1. lia.
    - rewrite <- times_add. replace (m + (n - m)) with n by lia. exact H2.
  Qed.
  Lemma steps_test s n : steps s n -> c s = negb (Nat.eqb n 0).
  Proof. intros [H1 H2]. destruct n as [|n]; cbn; [exact H2|]. apply (H1 0). lia. Qed.
  Lemma steps_fun s n m : steps s n -> steps s m -> n = m.
  Proof.
    intros [A1 A2] [B1 B2]. destruct (Nat.lt_trichotomy n m) as [H|[H|H]]; [|exact H|].
    - rewrite (B1 n H) in A2. discriminate.
    - rewrite (A1 m H) in B2. discriminate.
  Qed.

  Definition plain (l : list (event S)) : Prop := vjps l = [] /\ ~ In Save l /\ ~ In Drop l.
  Lemma plain_app a b : plain a -> plain b -> plain (a ++ b).
  Proof. intros (A1 & A2 & A3) (B1 & B2 & B3). split; [rewrite vjps_app, A1, B1; reflexivity|]. split; rewrite in_app_iff; tauto. Qed.
  Lemma plain_test a : plain a -> plain (Test :: a).
  Proof. intros (A1 & A2 & A3). split; [exact A1|]. split; intros [H|H]; try discriminate; tauto. Qed.
  Lemma plain_scan d : (forall s, plain (fst (run d s))) -> forall k s, plain (fst (scan k (iter d) s)).
  Proof.
    intros H k. induction k as [|k IH]; intros s; cbn [scan]; [repeat split; auto|]. unfold iter at 1.
    destruct (c s); [specialize (H s); destruct (run d s) as [e s']|].
    - specialize (IH s'). destruct (scan k (iter d) s') as [e' s'']. cbn [fst] in *. apply plain_app; [apply plain_test|]; auto.
    - specialize (IH s). destruct (scan k (iter d) s) as [e' s'']. cbn [fst] in *. apply plain_app; [|auto]. apply plain_test. repeat split; auto.
  Qed.
  Lemma plain_run d : forall s, plain (fst (run d s)).
  Proof.
    induction d as [|d IH]; intros s; [|exact (plain_scan d IH base s)]. split; [reflexivity|]. split; intros [H|[]]; discriminate.
  Qed.

  (** Going forwards. *)
  Definition counts (d : nat) : Prop := forall s n, steps s n -> 1 <= n ->
    snd (run d s) = times (Nat.min n (base ^ d)) f s /\ bodies (fst (run d s)) = Nat.min n (base ^ d) /\
    tests (fst (run d s)) = base * levels base d (Nat.min n (base ^ d)).
  Lemma iter_spec d : counts d -> forall s n, steps s n ->
    snd (iter d s) = times (Nat.min n (base ^ d)) f s /\ bodies (fst (iter d s)) = Nat.min n (base ^ d) /\
    tests (fst (iter d s)) = 1 + base * levels base d (Nat.min n (base ^ d)).
  Proof.
    intros HC s n Hs. unfold iter. rewrite (steps_test _ _ Hs). destruct n as [|n]; cbn [Nat.eqb negb].
    - cbn [Nat.min snd fst times]. rewrite levels_0 by exact Hb. rewrite Nat.mul_0_r. repeat split.
    - destruct (HC s _ Hs ltac:(lia)) as (H1 & H2 & H3). destruct (run d s) as [e s']. cbn [fst snd] in *.
      split; [exact H1|]. split; [exact H2|]. unfold tests in *. cbn [filter length]. rewrite H3. reflexivity.
  Qed.
  Lemma scan_spec d : counts d -> forall k s n, steps s n ->
    snd (scan k (iter d) s) = times (Nat.min n (k * base ^ d)) f s /\ bodies (fst (scan k (iter d) s)) = Nat.min n (k * base ^ d) /\
    tests (fst (scan k (iter d) s)) = k + base * levels base d (Nat.min n (k * base ^ d)).
  Proof.
    intros HC k. pose proof (pow_pos d) as HB. set (B := base ^ d) in *.
    induction k as [|k IH]; intros s n Hs.
    { cbn. rewrite Nat.min_0_r. cbn. rewrite levels_0 by exact Hb. cbn. auto. }
    cbn [scan]. destruct (iter_spec d HC s n Hs) as (H1 & H2 & H3). fold B in H1, H2, H3. set (m := Nat.min n B) in *.
    pose proof (steps_skip s n m Hs ltac:(lia)) as Hs'. rewrite <- H1 in Hs'.
    destruct (iter d s) as [e s']. cbn [fst snd] in *. destruct (IH s' _ Hs') as (G1 & G2 & G3).
    destruct (scan k (iter d) s') as [e' s'']. cbn [fst snd] in *. subst s'. set (m' := Nat.min (n - m) (k * B)) in *.
    assert (E : Nat.min n (Datatypes.S k * B) = m + m') by (cbn [Nat.mul]; lia). rewrite E.
    split; [rewrite times_add; exact G1|]. split; [rewrite bodies_app; lia|]. rewrite tests_app, H3, G3.
    assert (EL : levels base d (m + m') = levels base d m + levels base d m'); [|rewrite EL; lia].
    destruct (Nat.le_gt_cases B n) as [L|L].
    - assert (m = 1 * base ^ d) as -> by (fold B; lia). apply levels_add. exact Hb.
    - assert (m' = 0) as -> by lia. rewrite levels_0 by exact Hb. rewrite !Nat.add_0_r. reflexivity.
  Qed.
  Lemma run_scan d s : run (Datatypes.S d) s = scan base (iter d) s.
  Proof. reflexivity. Qed.
  Lemma counts_all d : counts d.
  Proof.
    induction d as [|d IH]; intros s n Hs Hn.
    - cbn. rewrite Nat.min_r by lia. cbn. split; [reflexivity|]. split; [reflexivity|lia].
    - rewrite run_scan. destruct (scan_spec d IH base s n Hs) as (H1 & H2 & H3). cbn [Nat.pow]. split; [exact H1|]. split; [exact H2|].
      rewrite H3. cbn [levels]. rewrite (cdiv_1 _ (base ^ Datatypes.S d)); [lia|]. cbn [Nat.pow]. pose proof (pow_pos d). nia.
  Qed.

  (** Going backwards. *)
  Fixpoint carries (k : nat) (step : S -> list (event S) * S) (s : S) : list S :=
    match k with O => [] | Datatypes.S k' => s :: carries k' step (snd (step s)) end.
  Lemma scan_store_spec d : forall k s st, exists e,
    scan_store k (iter d) s st = (e, snd (scan k (iter d) s), rev (carries k (iter d) s) ++ st) /\
    bodies e = bodies (fst (scan k (iter d) s)) /\ vjps e = [] /\
    forall cap m, m + k <= cap -> memory cap m e (m + k).
  Proof.
    induction k as [|k IH]; intros s st.
    { exists []. cbn. repeat split; auto. intros cap m _. rewrite Nat.add_0_r. constructor. }
    cbn [scan scan_store carries]. pose proof (plain_scan d (plain_run d) 1 s) as HP. cbn [scan] in HP.
    destruct (iter d s) as [e s']. cbn [fst snd] in *. rewrite app_nil_r in HP.
    destruct (IH s' (s :: st)) as (e' & -> & H2 & H3 & H4). destruct (scan k (iter d) s') as [e2 s2]. cbn [fst snd] in *.
    exists (Save :: e ++ e'). split; [cbn [rev]; rewrite <- app_assoc; reflexivity|].
    destruct HP as (P1 & P2 & P3). split; [|split].
    - change (bodies (Save :: e ++ e')) with (bodies (e ++ e')). rewrite !bodies_app, H2. reflexivity.
    - cbn. rewrite vjps_app, P1, H3. reflexivity.
    - intros cap m Hm. constructor; [lia|]. replace (m + Datatypes.S k) with (Datatypes.S m + k) by lia.
      specialize (H4 cap (Datatypes.S m) ltac:(lia)). clear - P2 P3 H4.
      induction e as [|x e IHe]; [exact H4|]. cbn [app]. apply m_other; [intros ->; apply P2; left; auto|intros ->; apply P3; left; auto|].
      apply IHe; intros H; [apply P2|apply P3]; right; exact H.
  Qed.
  Lemma carries_length k step s : length (carries k step s) = k.
  Proof. revert s. induction k as [|k IH]; intros s; cbn; [|rewrite IH]; reflexivity. Qed.
  Lemma forwards_spec d s : exists e, forwards (Datatypes.S d) s = (e, snd (run (Datatypes.S d) s), rev (carries base (iter d) s)) /\
    bodies e = bodies (fst (run (Datatypes.S d) s)) /\ vjps e = [] /\ forall cap m, m + base <= cap -> memory cap m e (m + base).
  Proof. destruct (scan_store_spec d base s []) as (e & H & H'). exists e. rewrite app_nil_r in H. split; [exact H|exact H']. Qed.

  Fixpoint orbit (n : nat) (s : S) : list S := match n with O => [] | Datatypes.S n' => s :: orbit n' (f s) end.
  Lemma orbit_add n m s : orbit (n + m) s = orbit n s ++ orbit m (times n f s).
  Proof. revert s. induction n as [|n IH]; intros s; cbn; [|rewrite IH]; reflexivity. Qed.
  Definition back (d : nat) (s : S) : list (event S) :=
    match d with
    | O => if c s then [Vjp s] else []
    | _ => Test :: (if c s then let '(e, _, st) := forwards d s in e ++ backwards d st else [])
    end ++ [Drop].
  Lemma backwards_S d st : backwards (Datatypes.S d) st = flat_map (back d) st.
  Proof. reflexivity. Qed.

  Definition reverses_ok (d : nat) : Prop := forall s n, steps s n ->
    vjps (back d s) = rev (orbit (Nat.min n (base ^ d)) s) /\ bodies (back d s) = d * Nat.min n (base ^ d).
  Lemma over_carries d : reverses_ok d -> forall k s n, steps s n ->
    flat_map (fun s => rev (vjps (back d s))) (carries k (iter d) s) = orbit (Nat.min n (k * base ^ d)) s /\
    list_sum (map (fun s => bodies (back d s)) (carries k (iter d) s)) = d * Nat.min n (k * base ^ d).
  Proof.
    intros HR k. pose proof (pow_pos d) as HB. induction k as [|k IH]; intros s n Hs.
    { cbn. rewrite Nat.min_0_r. cbn. split; [reflexivity|lia]. }
    cbn [carries flat_map map list_sum fold_right]. destruct (HR s n Hs) as [R1 R2].
    destruct (iter_spec d (counts_all d) s n Hs) as (H1 & _ & _). set (B := base ^ d) in *. set (m := Nat.min n B) in *.
    pose proof (steps_skip s n m Hs ltac:(lia)) as Hs'. rewrite <- H1 in Hs'. destruct (IH _ _ Hs') as [G1 G2].
    assert (E : Nat.min n (Datatypes.S k * B) = m + Nat.min (n - m) (k * B)) by (cbn [Nat.mul]; lia). rewrite E.
    split.
    - rewrite R1, rev_involutive, G1, H1, orbit_add. reflexivity.
    - unfold list_sum in *. rewrite R2, G2. lia.
  Qed.
  Lemma level_spec d : reverses_ok d -> forall s n, steps s n -> exists e st s', forwards (Datatypes.S d) s = (e, s', st) /\
    vjps (e ++ backwards (Datatypes.S d) st) = rev (orbit (Nat.min n (base ^ Datatypes.S d)) s) /\
    bodies (e ++ backwards (Datatypes.S d) st) = Datatypes.S d * Nat.min n (base ^ Datatypes.S d).
  Proof.
    intros HR s n Hs. destruct (forwards_spec d s) as (e & E & E1 & E2 & _). eexists e, _, _. split; [exact E|].
    destruct (over_carries d HR base s n Hs) as [O1 O2]. destruct (scan_spec d (counts_all d) base s n Hs) as (_ & C2 & _).
    rewrite vjps_app, bodies_app, E2, E1, backwards_S, vjps_flat, bodies_flat, flat_map_rev, map_rev, sum_rev, O1, O2, run_scan, C2.
    cbn [Nat.pow app]. split; [reflexivity|lia].
  Qed.
  Lemma reverses_all d : reverses_ok d.
  Proof.
    induction d as [|d IH]; intros s n Hs; unfold back; rewrite (steps_test _ _ Hs).
    - destruct n as [|n]; cbn [Nat.eqb negb app Nat.pow]; [split; reflexivity|]. rewrite Nat.min_r by lia. split; reflexivity.
    - rewrite vjps_app, bodies_app. cbn [vjps]. rewrite app_nil_r. change (bodies [Drop]) with 0. rewrite Nat.add_0_r.
      destruct n as [|n]; cbn [Nat.eqb negb].
      + cbn. split; [reflexivity|]. change (bodies [Test]) with 0. lia.
      + destruct (level_spec d IH s _ Hs) as (e & st & s' & -> & H1 & H2). split; [exact H1|].
        change (bodies (Test :: e ++ backwards (Datatypes.S d) st)) with (bodies (e ++ backwards (Datatypes.S d) st)). exact H2.
  Qed.

  (** Memory. *)
  Lemma memory_app cap (a b : list (event S)) : forall n m k, memory cap n a m -> memory cap m b k -> memory cap n (a ++ b) k.
  Proof. intros n m k H. induction H; intros Hk; cbn [app]; [auto|constructor; auto..]. Qed.
  Lemma backwards_memory d : forall st cap n, n + length st + base * d <= cap -> memory cap (n + length st) (backwards (Datatypes.S d) st) n.
  Proof.
    induction d as [|d IH]; intros st; (induction st as [|s st IHst]; intros cap n Hc; [cbn; rewrite Nat.add_0_r; constructor|]);
      rewrite backwards_S in *; cbn [flat_map length] in *; (apply memory_app with (n + length st); [|apply IHst; lia]);
      unfold back; (apply memory_app with (n + Datatypes.S (length st)); [|rewrite Nat.add_succ_r; repeat constructor]).
    - destruct (c s); [|constructor]. apply m_other; [discriminate..|constructor].
    - apply m_other; [discriminate..|]. destruct (c s); [|constructor].
      destruct (forwards_spec d s) as (e & -> & _ & _ & HM).
      apply memory_app with (n + Datatypes.S (length st) + base); [apply HM; nia|].
      pose proof (IH (rev (carries base (iter d) s)) cap (n + Datatypes.S (length st))) as H.
      rewrite rev_length, carries_length in H. apply H. nia.
  Qed.
  Lemma differentiate_memory d s : memory (base * Datatypes.S d) 0 (differentiate c f base (Datatypes.S d) s) 0.
  Proof.
    unfold differentiate. destruct (forwards_spec d s) as (e & E & _ & _ & HM). rewrite E.
    apply memory_app with (0 + base); [apply HM; nia|].
    pose proof (backwards_memory d (rev (carries base (iter d) s)) (base * Datatypes.S d) 0) as H.
    rewrite rev_length, carries_length in H. apply H. nia.
  Qed.
End Cost.
