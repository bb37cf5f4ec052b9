From Verif Require Import Base Ckpt_Model Ckpt_Spec Ckpt_Proofs Loop_Model Loop_Spec.
From Coq Require Import Permutation.
Open Scope Z_scope.

Lemma upd_nth_same {A} (l : list A) i d : upd l i (nth i l d) = l.
Proof. revert i; induction l; intros [|i]; cbn; congruence. Qed.

Lemma buffer_write_true {X} real (b : list X) w : buffer_write real true b w = plain_write b w.
Proof.
  unfold buffer_write, plain_write, maybe_set, select_if_vmap.
  destruct (w_pred w) as [[]|]; cbn; auto.
  - apply upd_nth_same.
  - destruct real; auto.
Qed.
Lemma buffer_write_false {X} (b : list X) w : buffer_write true false b w = b.
Proof.
  unfold buffer_write, maybe_set, select_if_vmap.
  destruct (w_pred w) as [[]|]; cbn; apply upd_nth_same.
Qed.
Lemma writes_true {X} real ws : forall b : list X, fold_left (buffer_write real true) ws b = fold_left plain_write ws b.
Proof. induction ws; intros; cbn; auto. rewrite buffer_write_true. auto. Qed.
Lemma writes_false {X} ws : forall b : list X, fold_left (buffer_write true false) ws b = b.
Proof. induction ws; intros; cbn; auto. rewrite buffer_write_false. auto. Qed.

Lemma Forall2_combine {A B} (R : A -> B -> Prop) l l' : Forall2 R l l' ->
  forall p, In p (List.combine l l') -> R (fst p) (snd p).
Proof. induction 1; cbn; [tauto|]. intros p [<-|H']; auto. Qed.

Lemma list_max_in l : (0 < list_max l)%nat -> In (list_max l) l.
Proof.
  induction l as [|a l IH]; [cbn; lia|]. intros H. change (list_max (a :: l)) with (Nat.max a (list_max l)) in *.
  destruct (Nat.le_gt_cases a (list_max l)).
  - rewrite Nat.max_r by lia. right. apply IH. lia.
  - rewrite Nat.max_l by lia. left; auto.
Qed.

Lemma Forall2_in_r {A B} (R : A -> B -> Prop) l l' : Forall2 R l l' ->
  forall b, In b l' -> exists a, In (a, b) (List.combine l l') /\ R a b.
Proof.
  induction 1; cbn; [tauto|]. intros b [<-|H']; eauto. destruct (IHForall2 _ H') as (a & ? & ?). eauto.
Qed.

Section Proofs.
  Context {N X : Type}.
  Variable body : N -> list X -> N * list (write X).
  Variable cond : N -> list X -> bool.
  Variable m : option Z.
  Notation run := (plain_run body).
  Notation pc := (plain_cond cond).
  Notation stops := (lane_stops body cond m).

  Definition lane_rel (k : nat) (vs : (N * list X) * nat) (lb : lane * list X) : Prop :=
    let '(p, _, v) := fst lb in
    p = pc (run (Nat.min k (snd vs)) (fst vs)) /\ (v, snd lb) = run (Nat.min k (snd vs)) (fst vs).

  Lemma lane_step real k vs lb :
    stops (fst vs) (snd vs) -> lane_rel k vs lb ->
    match m with Some m => Z.of_nat k < m | None => True end ->
    (real = true \/ (k < snd vs)%nat) ->
    lane_rel (S k) vs (lane_body body cond real (fst lb) (snd lb)).
  Proof.
    destruct vs as [vb s], lb as [[[p q] v] b]. cbn [fst snd]. intros (H1 & H2 & H3) [Hp Hv] Hm Hr.
    cbn in Hp, Hv. unfold lane_body. destruct (body v b) as [v2 ws] eqn:Eb.
    destruct (Nat.lt_ge_cases k s) as [Hlt|Hge].
    - rewrite Nat.min_l in Hp, Hv by lia. rewrite (H1 k Hlt) in Hp. subst p.
      unfold lane_rel. cbn [fst snd]. rewrite writes_true.
      rewrite Nat.min_l by lia. cbn [plain_run]. unfold plain_step. rewrite <- Hv. cbn [fst snd].
      rewrite Eb. cbn [fst snd]. split; [reflexivity|].
      unfold select_if_vmap. destruct real; reflexivity.
    - destruct Hr as [->|Hr]; [|lia].
      rewrite Nat.min_r in Hp, Hv by lia.
      assert (Hf : pc (run s vb) = false).
      { destruct H3 as [H3|H3]; auto. rewrite H3 in *. lia. }
      rewrite Hf in Hp. subst p.
      unfold lane_rel. cbn [fst snd]. rewrite writes_false. rewrite Nat.min_r by lia.
      rewrite Hf. split; auto.
  Qed.

  Variable inits : list (N * list X).
  Variable ss : list nat.
  Hypothesis Hss : Forall2 stops inits ss.
  Notation mx := (list_max ss).

  Definition st_rel (k : nat) (sb : rw_val (N:=N) * rw_bufs (X:=X)) : Prop :=
    fst (fst sb) = Z.of_nat k /\ length (snd (fst sb)) = length inits /\ length (snd sb) = length inits /\
    Forall2 (lane_rel k) (List.combine inits ss) (List.combine (snd (fst sb)) (snd sb)).

  Lemma Forall2_map_l {A B A'} (R : A' -> B -> Prop) (f : A -> A') l l' :
    Forall2 R (map f l) l' <-> Forall2 (fun a b => R (f a) b) l l'.
  Proof.
    split.
    - revert l'. induction l; intros l' H; inversion H; subst; constructor; auto.
    - induction 1; cbn; constructor; auto.
  Qed.
  Lemma Forall2_map_r {A B B'} (R : A -> B' -> Prop) (f : B -> B') l l' :
    Forall2 R l (map f l') <-> Forall2 (fun a b => R a (f b)) l l'.
  Proof.
    split.
    - revert l. induction l'; intros l H; inversion H; subst; constructor; auto.
    - induction 1; cbn; constructor; auto.
  Qed.

  Lemma combine_map_fst_snd {A B} (f : (A * B) -> A) (g : (A * B) -> B) l :
    List.combine (map f l) (map g l) = map (fun x => (f x, g x)) l.
  Proof. induction l; cbn; congruence. Qed.

  Lemma st_init : st_rel 0 (rw_init cond inits, rw_init_bufs inits).
  Proof.
    unfold st_rel, rw_init, rw_init_bufs. cbn [fst snd]. rewrite !map_length. repeat split; auto.
    induction Hss as [|vb s l l' Hs Hl IH]; cbn; constructor; auto.
    unfold lane_rel. cbn. destruct vb; auto.
  Qed.

  Lemma mx_bound : match m with Some m => (0 <= m -> Z.of_nat mx <= m) | None => True end.
  Proof.
    destruct m as [m0|] eqn:Em; auto. intros Hm0.
    destruct (Nat.eq_dec mx 0); [lia|].
    destruct (Forall2_in_r _ _ _ Hss _ (list_max_in ss ltac:(lia))) as (vb & _ & _ & Hs & _). exact Hs.
  Qed.

  Lemma mx_bound' k : (k < mx)%nat -> match m with Some m => Z.of_nat k < m | None => True end.
  Proof.
    intros Hk. destruct m as [m0|] eqn:Em; auto.
    destruct (Forall2_in_r _ _ _ Hss _ (list_max_in ss ltac:(lia))) as (vb & _ & _ & Hs & _). lia.
  Qed.

  Lemma st_test k sb : st_rel k sb -> (k <= mx)%nat -> rw_test cond m sb = (k <? mx)%nat.
  Proof.
    destruct sb as [[stp ls] bs]. intros (H1 & H2 & H3 & H4) Hk. cbn [fst snd] in *.
    unfold rw_test, rw_cond. cbn [fst snd]. subst stp.
    match goal with |- context [existsb ?f (List.combine ls bs)] =>
      replace (existsb f (List.combine ls bs)) with
        (existsb (fun vs : (N * list X) * nat => pc (run (Nat.min k (snd vs)) (fst vs))) (List.combine inits ss)) end.
    2:{ clear - H4. induction H4 as [|vs lb l1 l2 Hr Hl IH]; cbn; auto. rewrite IH. f_equal.
      destruct lb as [[[p q] v] b]. destruct Hr as [_ Hr]. cbn in *. unfold plain_cond. rewrite <- Hr. reflexivity. }
    destruct (Nat.ltb_spec k mx) as [Hlt|Hge].
    - pose proof (mx_bound' k Hlt) as Hm.
      assert (existsb (fun vs : (N * list X) * nat => pc (run (Nat.min k (snd vs)) (fst vs))) (List.combine inits ss) = true) as ->.
      { destruct (Forall2_in_r _ _ _ Hss _ (list_max_in ss ltac:(lia))) as (vb & Hin & Hs & _).
        apply existsb_exists. exists (vb, mx). split; [exact Hin|]. cbn [fst snd].
        rewrite Nat.min_l by lia. apply Hs. lia. }
      destruct m; auto. cbn. lia.
    - assert (k = mx) by lia. subst k.
      destruct (match m with Some m0 => Z.of_nat mx <? m0 | None => true end) eqn:Em.
      + assert (existsb (fun vs : (N * list X) * nat => pc (run (Nat.min mx (snd vs)) (fst vs))) (List.combine inits ss) = false) as ->.
        { match goal with |- ?e = false => destruct e eqn:E; [|reflexivity] end.
          apply existsb_exists in E. destruct E as ([vb s] & Hin & E). cbn [fst snd] in E.
          pose proof (Forall2_combine _ _ _ Hss _ Hin) as (_ & _ & Hs). cbn [fst snd] in Hs.
          assert (Hle : (s <= mx)%nat).
          { apply in_combine_r in Hin. assert (Hx : (list_max ss <= mx)%nat) by lia.
            apply list_max_le in Hx. rewrite Forall_forall in Hx. auto. }
          rewrite Nat.min_r in E by lia. destruct Hs as [Hs|Hs]; [congruence|]. rewrite Hs in Em. lia. }
        destruct m; auto.
      + destruct m; [|discriminate]. rewrite Em. apply andb_false_r.
  Qed.

  Lemma st_result k sb : st_rel k sb -> (mx <= k)%nat ->
    rw_result (fst sb) (snd sb) = map (fun vs => run (snd vs) (fst vs)) (List.combine inits ss).
  Proof.
    destruct sb as [[stp ls] bs]. intros (H1 & H2 & H3 & H4) Hk. cbn [fst snd] in *. unfold rw_result. cbn [snd].
    assert (Hc : List.combine (map (fun l : lane => snd l) ls) bs = map (fun lb : lane * list X => (snd (fst lb), snd lb)) (List.combine ls bs)).
    { assert (Hl : length ls = length bs) by lia. clear -Hl. revert bs Hl.
      induction ls; intros [|b bs] Hl; cbn in *; try lia; auto. rewrite IHls by lia. reflexivity. }
    rewrite Hc.
    assert (Hle : forall vs, In vs (List.combine inits ss) -> (snd vs <= k)%nat).
    { intros [vb s] Hin. apply in_combine_r in Hin. cbn.
      assert (Hx : (list_max ss <= k)%nat) by auto. apply list_max_le in Hx. rewrite Forall_forall in Hx. auto. }
    clear - H4 Hle. induction H4 as [|vs lb l1 l2 Hr Hl IH]; cbn; auto. rewrite IH by (intros; apply Hle; right; auto).
    f_equal. specialize (Hle vs (or_introl eq_refl)).
    destruct lb as [[[p q] v] b]. destruct Hr as [_ Hr]. cbn in *. rewrite Hr. rewrite Nat.min_r by lia. reflexivity.
  Qed.

  Variable real : bool.
  Hypothesis Hreal : real = true \/ (forall s, In s ss -> s = mx).

  Lemma st_step k sb : st_rel k sb -> (k < mx)%nat -> st_rel (S k) (rw_step body cond real sb).
  Proof.
    destruct sb as [[stp ls] bs]. intros (H1 & H2 & H3 & H4) Hk. cbn [fst snd] in *.
    unfold st_rel, rw_step, rw_fN, rw_fB. cbn [fst snd].
    rewrite !map_length, combine_length. repeat split; try lia.
    rewrite combine_map_fst_snd. apply Forall2_map_r.
    pose proof (mx_bound' k Hk) as Hm.
    assert (Hall : forall vs, In vs (List.combine inits ss) -> stops (fst vs) (snd vs) /\ (real = true \/ (k < snd vs)%nat)).
    { intros [vb s] Hin. cbn. split.
      - exact (Forall2_combine _ _ _ Hss _ Hin).
      - destruct Hreal as [?|Hr]; auto. right. rewrite (Hr s); auto. eapply in_combine_r; eauto. }
    clear Hss Hreal. revert H4 Hall. generalize (List.combine inits ss) as l1. generalize (List.combine ls bs) as l2.
    intros l2 l1 H4 Hall. induction H4 as [|vs lb l1 l2 Hr Hl IH]; constructor.
    - destruct (Hall vs) as [A B]; [left; auto|].
      pose proof (lane_step real k vs lb A Hr Hm B) as Hres.
      destruct (lane_body body cond real (fst lb) (snd lb)) as [x y]. exact Hres.
    - apply IH. intros. apply Hall. right; auto.
  Qed.

  Fixpoint st (k : nat) : rw_val * rw_bufs :=
    match k with O => (rw_init cond inits, rw_init_bufs inits) | S k' => rw_step body cond real (st k') end.

  Lemma st_rel_all k : (k <= mx)%nat -> st_rel k (st k).
  Proof. induction k; intros Hk; [apply st_init|]. cbn. apply st_step; auto. apply IHk; lia. Qed.

  Lemma lax_loop_correct fuel : (mx < fuel)%nat ->
    lax_loop body cond m real fuel inits =
      Some (map (fun vs => run (snd vs) (fst vs)) (List.combine inits ss)).
  Proof.
    intros Hf. unfold lax_loop.
    rewrite (while_steps (rw_test cond m) (rw_step body cond real) st mx); auto.
    - pose proof (st_result mx _ (st_rel_all mx (le_n _)) (le_n _)) as Hr. destruct (st mx). cbn in Hr. rewrite Hr. reflexivity.
    - intros k Hk. split; [|reflexivity]. rewrite (st_test k); [lia|apply st_rel_all; lia|lia].
    - rewrite (st_test mx); [lia|apply st_rel_all; lia|lia].
  Qed.

  Lemma lax_loop_short fuel : (fuel <= mx)%nat -> lax_loop body cond m real fuel inits = None.
  Proof.
    intros Hf. unfold lax_loop.
    rewrite (while_short (rw_test cond m) (rw_step body cond real) st mx); auto.
    intros k Hk. split; [|reflexivity]. rewrite (st_test k); [lia|apply st_rel_all; lia|lia].
  Qed.

  (** The trajectory of the rewritten loop, as seen by the checkpointing machinery. *)
  Lemma st_traj k : traj (rw_fN body cond real) (rw_fB body cond real) (rw_init cond inits) (rw_init_bufs inits) k = st k.
  Proof. induction k; cbn; [reflexivity|]. rewrite IHk. reflexivity. Qed.

  Lemma st_stops : stops_at (rw_fN body cond real) (rw_fB body cond real) (rw_cond cond m)
                     (rw_init cond inits) (rw_init_bufs inits) mx.
  Proof.
    split.
    - intros k Hk. rewrite st_traj. pose proof (st_test k (st k)) as H. unfold rw_test in H.
      rewrite H; [lia|apply st_rel_all; lia|lia].
    - rewrite st_traj. pose proof (st_test mx (st mx)) as H. unfold rw_test in H.
      rewrite H; [lia|apply st_rel_all; lia|lia].
  Qed.
End Proofs.

(** * Bounded loops *)
Section Bounded.
  Context {S : Type}.
  Variable c : S -> bool.
  Variable f : S -> S.
  Definition guarded (s : S) : S := if c s then f s else s.

  Lemma repeat_fn_add {A} (g : A -> A) a b s : repeat_fn (a + b) g s = repeat_fn b g (repeat_fn a g s).
  Proof. revert s; induction a; intros; cbn; auto. Qed.

  Lemma repeat_guarded_stop s n : c s = false -> repeat_fn n guarded s = s.
  Proof. intros H. induction n; cbn; auto. unfold guarded at 2. rewrite H. auto. Qed.

  Lemma repeat_ext {A} (g h : A -> A) n s : (forall x, g x = h x) -> repeat_fn n g s = repeat_fn n h s.
  Proof. intros H. revert s; induction n; intros; cbn; auto. rewrite H. auto. Qed.

  Lemma repeat_mul {A} (g : A -> A) a b s : repeat_fn (a * b) g s = repeat_fn a (repeat_fn b g) s.
  Proof. revert s; induction a; intros; cbn; auto. rewrite repeat_fn_add. auto. Qed.

  Lemma bounded_guarded base d : forall s, (c s = true \/ (0 < d)%nat) ->
    bounded_rec c f base d s = repeat_fn (base ^ d) guarded s.
  Proof.
    induction d; intros s H.
    - cbn. unfold guarded. destruct H as [->|H]; [auto|lia].
    - cbn [bounded_rec Nat.pow]. rewrite repeat_mul. apply repeat_ext. intros x.
      destruct (c x) eqn:E; [apply IHd; auto|]. symmetry. apply repeat_guarded_stop; auto.
  Qed.

  Lemma guarded_steps (st : nat -> S) n :
    (forall k, (k < n)%nat -> c (st k) = true /\ f (st k) = st (Datatypes.S k)) ->
    c (st n) = false -> forall R, (n <= R)%nat -> repeat_fn R guarded (st O) = st n.
  Proof.
    intros Hs Hn R HR. replace R with (n + (R - n))%nat by lia. rewrite repeat_fn_add.
    assert (H : forall j, (j <= n)%nat -> repeat_fn j guarded (st O) = st j).
    { induction j; intros Hj; auto. replace (Datatypes.S j) with (j + 1)%nat by lia.
      rewrite repeat_fn_add, IHj by lia. cbn. unfold guarded. destruct (Hs j ltac:(lia)) as [-> ->].
      f_equal. lia. }
    rewrite H by lia. apply repeat_guarded_stop; auto.
  Qed.
End Bounded.

Lemma log_ceil_spec base m : (2 <= base)%nat -> (m <= base ^ log_ceil base m)%nat.
Proof.
  intros Hb. unfold log_ceil.
  assert (H : forall fuel d pw, (m <= pw + fuel)%nat -> pw = (base ^ d)%nat ->
    (m <= base ^ ((fix go (fuel d pw : nat) : nat :=
       match fuel with
       | O => d
       | Datatypes.S fuel' => if Nat.leb m pw then d else go fuel' (Datatypes.S d) (pw * base)%nat
       end) fuel d pw))%nat).
  { induction fuel; intros d pw H1 ->.
    - lia.
    - destruct (Nat.leb_spec m (base ^ d)); [auto|]. apply IHfuel.
      + assert (1 <= base ^ d)%nat by (pose proof (Nat.pow_nonzero base d); lia). nia.
      + cbn. lia. }
  apply H; cbn; lia.
Qed.

Lemma log_ceil_1 base : log_ceil base 1 = O.
Proof. reflexivity. Qed.
Lemma log_ceil_pos base m : (1 < m)%nat -> (0 < log_ceil base m)%nat.
Proof.
  intros H. unfold log_ceil. destruct m; [lia|]. destruct (Nat.leb_spec (S m) 1); [lia|].
  assert (Hg : forall fuel d pw, (d <= ((fix go (fuel d pw : nat) : nat :=
       match fuel with
       | O => d
       | Datatypes.S fuel' => if Nat.leb (S m) pw then d else go fuel' (Datatypes.S d) (pw * base)%nat
       end) fuel d pw))%nat).
  { induction fuel; intros; [auto|]. destruct (Nat.leb _ _); [auto|].
    specialize (IHfuel (S d) (pw * base)%nat). lia. }
  match goal with |- (0 < ?x)%nat => pose proof (Hg m 1%nat (1 * base)%nat) end. lia.
Qed.

Section BoundedLoop.
  Context {N X : Type}.
  Variable body : N -> list X -> N * list (write X).
  Variable cond : N -> list X -> bool.

  Lemma bounded_loop_correct (mm : Z) base inits ss :
    (2 <= base)%nat -> 0 <= mm -> Forall2 (lane_stops body cond (Some mm)) inits ss ->
    bounded_loop body cond mm base inits =
      Ok (map (fun vs => plain_run body (snd vs) (fst vs)) (List.combine inits ss)).
  Proof.
    intros Hb Hm Hss. unfold bounded_loop. destruct (Z.ltb_spec mm 0); [lia|].
    destruct (Z.eqb_spec mm 0) as [->|Hm0].
    { f_equal. induction Hss as [|vb s l l' Hs Hl IH]; cbn; auto. rewrite <- IH. f_equal.
      destruct Hs as (_ & Hs & _). assert (s = 0%nat) by lia. subst. reflexivity. }
    set (st := st body cond inits true).
    assert (Hreal : true = true \/ (forall s, In s ss -> s = list_max ss)) by auto.
    pose proof (mx_bound body cond (Some mm) inits ss Hss) as Hmx. cbn in Hmx. specialize (Hmx Hm).
    assert (Hrel := st_rel_all body cond (Some mm) inits ss Hss true Hreal).
    assert (Htest := fun k => st_test body cond (Some mm) inits ss Hss k).
    assert (Hcase : bounded_rec (rw_test cond (Some mm)) (rw_step body cond true) base
              (log_ceil base (Z.to_nat mm)) (st O) = st (list_max ss) \/
              (mm = 1 /\ list_max ss = 0%nat)).
    { destruct (Z.eq_dec mm 1) as [->|Hm1].
      - destruct (Nat.eq_dec (list_max ss) 0); [right; auto|left].
        assert (list_max ss = 1%nat) as -> by lia. reflexivity.
      - left. rewrite bounded_guarded by (right; apply log_ceil_pos; lia).
        apply guarded_steps.
        + intros k Hk. split; [|reflexivity]. rewrite (Htest k); [lia|apply Hrel; lia|lia].
        + rewrite (Htest (list_max ss)); [lia|apply Hrel; lia|lia].
        + pose proof (log_ceil_spec base (Z.to_nat mm) Hb). lia. }
    change (rw_init cond inits, rw_init_bufs inits) with (st O).
    destruct Hcase as [->|[-> Hz]].
    - pose proof (st_result body cond inits ss _ _ (Hrel _ (le_n _)) (le_n _)) as Hr.
      fold st in Hr. destruct (st (list_max ss)). cbn in Hr. rewrite Hr. reflexivity.
    - (* max_steps = 1 and no lane wants a step: the body runs once but changes nothing *)
      rewrite log_ceil_1. cbn [bounded_rec].
      assert (H1 : Forall (fun s => s = 0%nat) ss).
      { assert (Hx : (list_max ss <= 0)%nat) by lia. apply list_max_le in Hx.
        eapply Forall_impl; [|exact Hx]. cbn; intros; lia. }
      unfold st, Loop_Proofs.st, rw_step, rw_fN, rw_fB, rw_init, rw_init_bufs. cbn [fst snd].
      f_equal. unfold rw_result. cbn [snd fst].
      clear - Hss H1. induction Hss as [|vb s l l' Hs Hl IH]; cbn; auto.
      inversion H1; subst. destruct vb as [v b]. destruct Hs as (_ & _ & [Hs|Hs]); [|discriminate].
      cbn in Hs. unfold plain_cond in Hs. cbn in Hs. cbn. rewrite Hs.
      destruct (body v b) as [v2 ws]. cbn. rewrite writes_false. f_equal. apply IH; auto.
  Qed.
End BoundedLoop.
