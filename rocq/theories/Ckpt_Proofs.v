From Verif Require Import Base Ckpt_Model Ckpt_Spec.
From Coq Require Import Permutation.
Open Scope Z_scope.

(** * Lists *)
Lemma upd_length {A} (l : list A) i x : length (upd l i x) = length l.
Proof. revert i; induction l; destruct i; cbn; auto. Qed.

Lemma nth_error_upd {A} (l : list A) i x k :
  nth_error (upd l i x) k =
  if Nat.eqb k i then (if Nat.ltb i (length l) then Some x else None) else nth_error l k.
Proof.
  revert i k; induction l as [|y l IH]; intros i k.
  - destruct i; cbn; destruct k; cbn; try reflexivity. destruct (Nat.eqb k i); reflexivity.
  - destruct i, k; cbn; try reflexivity. rewrite IH. reflexivity.
Qed.

Lemma nth_error_upd_same {A} (l : list A) i x :
  (i < length l)%nat -> nth_error (upd l i x) i = Some x.
Proof. intros. rewrite nth_error_upd, Nat.eqb_refl. destruct (Nat.ltb_spec i (length l)); auto; lia. Qed.

Lemma nth_error_upd_other {A} (l : list A) i x k :
  k <> i -> nth_error (upd l i x) k = nth_error l k.
Proof. intros. rewrite nth_error_upd. destruct (Nat.eqb_spec k i); congruence. Qed.

Lemma clampi_in n i : 0 <= i < Z.of_nat n -> clampi n i = Z.to_nat i.
Proof. unfold clampi; intros; f_equal; lia. Qed.

Lemma clampi_lt n i : (0 < n)%nat -> (clampi n i < n)%nat.
Proof. unfold clampi; intros; lia. Qed.

Lemma nth_error_repeat {A} (x : A) n k : (k < n)%nat -> nth_error (repeat x n) k = Some x.
Proof. revert k; induction n; intros [|k] H; cbn; try lia; auto. apply IHn; lia. Qed.

Lemma nth_error_combine {A B} (l : list A) (l' : list B) k :
  nth_error (List.combine l l') k =
  match nth_error l k, nth_error l' k with Some a, Some b => Some (a, b) | _, _ => None end.
Proof.
  revert l' k; induction l as [|a l IH]; intros [|b l'] [|k]; cbn; auto.
  - destruct (nth_error l k); auto.
Qed.

(** [argmax] returns an index of a maximal element. *)
Lemma argmax_from_spec l : forall i best bv pre,
  i = length pre -> nth_error pre best = Some bv -> (forall x, In x pre -> x <= bv) ->
  exists m, nth_error (pre ++ l) (argmax_from best bv i l) = Some m /\
            (forall x, In x (pre ++ l) -> x <= m).
Proof.
  induction l as [|x l IH]; intros i best bv pre Hi Hb Hm; cbn.
  - exists bv. rewrite app_nil_r. auto.
  - replace (pre ++ x :: l) with ((pre ++ [x]) ++ l) by (rewrite <- app_assoc; reflexivity).
    destruct (Z.ltb_spec bv x).
    + apply IH.
      * rewrite app_length; cbn. lia.
      * subst i. rewrite nth_error_app2, Nat.sub_diag by lia. reflexivity.
      * intros y Hy. apply in_app_or in Hy. destruct Hy as [Hy|[Hy|[]]]; [specialize (Hm y Hy)|]; lia.
    + apply IH.
      * rewrite app_length; cbn; lia.
      * rewrite nth_error_app1; auto. apply nth_error_Some. congruence.
      * intros y Hy. apply in_app_or in Hy. destruct Hy as [Hy|[Hy|[]]]; [auto|lia].
Qed.

Lemma argmax_spec l : l <> [] ->
  exists m, nth_error l (argmax l) = Some m /\ (forall k x, nth_error l k = Some x -> x <= m).
Proof.
  destruct l as [|x l]; [congruence|]. intros _. unfold argmax.
  destruct (argmax_from_spec l 1 0 x [x]) as (m & H1 & H2); auto.
  - intros y [->|[]]. lia.
  - exists m; split; auto. intros k y Hy. apply H2. eapply nth_error_In; eauto.
Qed.

Lemma argmax_lt l : l <> [] -> (argmax l < length l)%nat.
Proof. intros H. destruct (argmax_spec l H) as (m & Hm & _). apply nth_error_Some. congruence. Qed.

(** * While loops *)
Lemma while_mono {S} (c : S -> bool) f : forall fuel fuel' s r,
  while fuel c f s = Some r -> (fuel <= fuel')%nat -> while fuel' c f s = Some r.
Proof.
  induction fuel; intros [|fuel'] s r H Hle; cbn in *; try discriminate; try lia.
  destruct (c s); auto. apply IHfuel; auto; lia.
Qed.

Lemma while_steps {S} (c : S -> bool) f (st : nat -> S) n :
  (forall k, (k < n)%nat -> c (st k) = true /\ f (st k) = st (Datatypes.S k)) ->
  c (st n) = false ->
  forall fuel, (n < fuel)%nat -> while fuel c f (st O) = Some (st n).
Proof.
  intros Hs Hn.
  assert (H : forall m k fuel, (k + m = n)%nat -> (m < fuel)%nat -> while fuel c f (st k) = Some (st n)).
  { induction m; intros k [|fuel] Hk Hf; try lia; cbn.
    - replace k with n by lia. rewrite Hn. reflexivity.
    - destruct (Hs k ltac:(lia)) as [-> ->]. apply IHm; lia. }
  intros fuel Hf. apply (H n 0%nat); auto.
Qed.

(** Fuel less than or equal to the number of iterations is not enough. *)
Lemma while_short {S} (c : S -> bool) f (st : nat -> S) n :
  (forall k, (k < n)%nat -> c (st k) = true /\ f (st k) = st (Datatypes.S k)) ->
  forall fuel, (fuel <= n)%nat -> while fuel c f (st O) = None.
Proof.
  intros Hs.
  assert (H : forall fuel k, (k + fuel <= n)%nat -> while fuel c f (st k) = None).
  { induction fuel; intros k Hk; cbn; auto.
    destruct (Hs k ltac:(lia)) as [-> ->]. apply IHfuel; lia. }
  intros fuel Hf. apply (H fuel 0%nat); auto.
Qed.

Lemma buf_nth {N} C (b : list (Z * N)) k : length b = Z.to_nat C -> (k < Z.to_nat C)%nat ->
  exists s v, nth_error b k = Some (s, v).
Proof.
  intros Hl Hk. destruct (nth_error b k) as [[s v]|] eqn:E; eauto.
  apply nth_error_None in E. lia.
Qed.

Lemma within_le C max_steps n m : (n <= m)%nat -> within C max_steps m -> within C max_steps n.
Proof. unfold within. destruct max_steps; intuition lia. Qed.

Section Proofs.
  Context {N Bf G P : Type}.
  Variable fN : N -> Bf -> N.
  Variable fB : N -> Bf -> Bf.
  Variable intmax : Z.
  Variable fill : N.
  Variable C : Z.
  Variable max_steps : option Z.
  Variables (v0 : N) (b0 : Bf).
  Hypothesis HC : 1 <= C.

  Notation traj := (traj fN fB v0 b0).
  Notation fwd_body := (fwd_body fN fB C max_steps).
  Notation fwd_init := (fwd_init intmax fill C).
  Notation all_saved := (all_saved C max_steps).

  (** * Forward pass *)

  (** [nsave step]: number of checkpoints that are in use after [step] steps. *)
  Definition buf_inv (step : Z) (b : list (Z * N)) : Prop :=
    length b = Z.to_nat C /\
    (forall k s v, nth_error b k = Some (s, v) ->
       if (Z.of_nat k <? Z.min step C) then 0 <= s < step /\ v = fst (traj (Z.to_nat s))
       else s = intmax) /\
    (forall j k s v v', nth_error b j = Some (s, v) -> nth_error b k = Some (s, v') ->
       Z.of_nat j < Z.min step C -> Z.of_nat k < Z.min step C -> j = k) /\
    (forall s v, nth_error b 0 = Some (s, v) -> 0 < step -> s = 0) /\
    (forall k s v, nth_error b k = Some (s, v) -> step <= C -> Z.of_nat k < step -> s = Z.of_nat k).

  Definition sw_inv (step : Z) (st : sw_state) : Prop :=
    let '(i, o, p, s) := st in
    o <= C /\
    (step < C -> i = step /\ o = C /\ p = C /\ s = true) /\
    (step = C -> o = C /\ p = C /\ s = false) /\
    (C < step -> s = true -> 1 <= i <= o /\ o <= C - 1 /\ step < p).

  Definition wm_inv (step : Z) (st : wm_state) : Prop :=
    let '(levels, disp) := st in
    length levels = Z.to_nat C /\ length disp = Z.to_nat C /\
    nth_error levels 0 = Some intmax /\ nth_error disp 0 = Some false /\
    (forall k l, nth_error levels k = Some l -> (0 < k)%nat -> 0 <= l <= step).

  Lemma sw_step step st save idx st' :
    0 <= step -> sw_inv step st -> stumm_walther step st = (save, idx, st') ->
    sw_inv (step + 1) st' /\
    (step < C -> save = true /\ idx = step) /\
    (C <= step -> save = true -> 1 <= idx < C).
  Proof.
    destruct st as [[[i o] p] s]. unfold sw_inv, stumm_walther. intros Hs H E.
    inversion E; subst; clear E.
    destruct save; cbn [andb];
    repeat match goal with |- context [if ?b then _ else _] => let E := fresh in destruct b eqn:E end;
    repeat match goal with H : (_ =? _) = true |- _ => apply Z.eqb_eq in H
      | H : (_ =? _) = false |- _ => apply Z.eqb_neq in H
      | H : (_ <? _) = true |- _ => apply Z.ltb_lt in H
      | H : (_ <? _) = false |- _ => apply Z.ltb_ge in H end;
    try discriminate;
    (split; [split; [|split; [|split]] | split]); intros; 
    try (destruct (Z.lt_trichotomy step C) as [?|[?|?]];
         intuition (try congruence; try lia); fail).
  Qed.

  (** Whenever all checkpoints are in use, Wang--Moin overwrites one other than the first. *)
  Lemma wm_step step st b save idx st' :
    C <= step -> 0 < step -> step < intmax ->
    wm_inv step st -> buf_inv step b -> wang_moin st (map fst b) = (save, idx, st') ->
    wm_inv (step + 1) st' /\ (save = true -> 1 <= idx < C).
  Proof.
    destruct st as [levels disp]. intros HCs Hs Him (Hl & Hd & Hl0 & Hd0 & Hlv) (Hb & Hbk & Hdist & Hb0 & _) E.
    unfold wang_moin in E. rewrite map_length, Hb in E.
    destruct (Nat.eqb_spec (Z.to_nat C) 1) as [HC1|HC1].
    { inversion E; subst. split; [|discriminate].
      cbn. repeat split; auto; intros; specialize (Hlv _ _ H H0); lia. }
    assert (Hne : map fst b <> []).
    { intros Hx. apply (f_equal (@length _)) in Hx. rewrite map_length in Hx. cbn in Hx. lia. }
    (* every slot other than the first holds a positive step *)
    assert (Hpos : forall k s v, nth_error b k = Some (s, v) -> (0 < k)%nat -> 0 < s).
    { intros k s v Hk Hk0.
      assert (Hklt : (k < length b)%nat) by (apply nth_error_Some; congruence).
      pose proof (Hbk _ _ _ Hk) as Hg. destruct (Z.ltb_spec (Z.of_nat k) (Z.min step C)); [|lia].
      destruct Hg as [Hg _].
      destruct (Z.eq_dec s 0) as [->|]; [|lia].
      destruct (buf_nth C b 0 Hb) as (s0 & w0 & H0); [lia|].
      assert (s0 = 0) by (eapply Hb0; eauto). subst s0.
      assert (k = 0%nat) by (eapply Hdist; eauto; lia). lia. }
    destruct (existsb (fun b => b) disp) eqn:Ex; cbn in E.
    - (* some checkpoint is dispensable *)
      set (ds := map (fun dr : bool * Z => if fst dr then snd dr else 0)
                     (List.combine disp (map fst b))) in *.
      inversion E; subst; clear E.
      assert (Hdsl : length ds = Z.to_nat C).
      { unfold ds. rewrite map_length, combine_length, map_length. lia. }
      assert (Hdsn : ds <> []) by (intros Hx; rewrite Hx in Hdsl; cbn in Hdsl; lia).
      assert (Hlt := argmax_lt ds Hdsn).
      destruct (argmax_spec ds Hdsn) as (m & Hm & Hmax).
      apply existsb_exists in Ex. destruct Ex as (x & Hx & ->).
      apply In_nth_error in Hx. destruct Hx as (k & Hk).
      assert (Hk0 : (0 < k)%nat) by (destruct k; [rewrite Hd0 in Hk; congruence | lia]).
      assert (Hklt : (k < length disp)%nat) by (apply nth_error_Some; congruence).
      destruct (buf_nth C b k Hb) as (s & v & Hbn); [lia|].
      assert (Hdk : nth_error ds k = Some s).
      { unfold ds. rewrite nth_error_map, nth_error_combine, Hk, nth_error_map, Hbn. reflexivity. }
      assert (Hsm := Hmax _ _ Hdk). assert (Hsp := Hpos _ _ _ Hbn Hk0).
      assert (Hi0 : argmax ds <> 0%nat).
      { intros Hi. rewrite Hi in Hm. unfold ds in Hm.
        rewrite nth_error_map, nth_error_combine, Hd0, nth_error_map in Hm.
        destruct (nth_error b 0); cbn in Hm; inversion Hm; lia. }
      split; [|intros; lia].
      unfold wm_inv. rewrite !upd_length. split; [auto|]. split; [auto|].
      rewrite !nth_error_upd_other by auto. split; [auto|]. split; [auto|].
      intros k0 l H H0. rewrite nth_error_upd in H.
      destruct (Nat.eqb k0 (argmax ds)); [destruct (Nat.ltb _ _); inversion H; lia|].
      specialize (Hlv _ _ H H0); lia.
    - (* none is *)
      inversion E; subst; clear E.
      assert (Hlt := argmax_lt _ Hne). rewrite map_length, Hb in Hlt.
      destruct (argmax_spec _ Hne) as (m & Hm & Hmax).
      set (ix := argmax (map fst b)) in *.
      assert (Hi0 : ix <> 0%nat).
      { intros Hi. rewrite Hi, nth_error_map in Hm.
        destruct (buf_nth C b 0 Hb) as (s0 & w0 & H0); [lia|]. rewrite H0 in Hm. cbn in Hm.
        assert (s0 = 0) by (eapply Hb0; eauto). inversion Hm. subst s0 m.
        destruct (buf_nth C b 1 Hb) as (s1 & w1 & H1); [lia|].
        specialize (Hpos _ _ _ H1 ltac:(lia)).
        specialize (Hmax 1%nat s1). rewrite nth_error_map, H1 in Hmax. specialize (Hmax eq_refl). lia. }
      destruct (nth_error levels ix) as [li|] eqn:Eli; [|apply nth_error_None in Eli; lia].
      assert (Hnth : nth ix levels 0 = li) by (apply nth_error_nth; auto).
      assert (Hli := Hlv _ _ Eli ltac:(lia)).
      split; [|intros; lia].
      unfold wm_inv. rewrite Hnth, upd_length, map_length, combine_length.
      split; [auto|]. split; [lia|].
      rewrite nth_error_upd_other by auto. split; [auto|]. split.
      + rewrite nth_error_map, nth_error_combine, Hl0, Hd0. cbn.
        destruct (Z.ltb_spec intmax li); [lia|reflexivity].
      + intros k l H H0. rewrite nth_error_upd in H.
        destruct (Nat.eqb k ix); [destruct (Nat.ltb _ _); inversion H; lia|].
        specialize (Hlv _ _ H H0); lia.
  Qed.

  (** Saving the current step in a slot that is the next free one, or any but the first
      once all are used, keeps the buffer invariant. *)
  Lemma buf_save step b idx :
    0 <= step -> buf_inv step b ->
    (step < C /\ idx = step \/ C <= step /\ 1 <= idx < C) ->
    buf_inv (step + 1) (maybe_update true idx (step, fst (traj (Z.to_nat step))) b).
  Proof.
    intros Hs (Hb & Hk & Hdist & H0 & H5) Hidx. unfold maybe_update.
    rewrite Hb, clampi_in by lia.
    assert (Hlt : (Z.to_nat idx < length b)%nat) by lia.
    unfold buf_inv. rewrite upd_length. repeat split; auto.
    - intros k s v Hn. rewrite nth_error_upd in Hn.
      assert (Hkl : (k < length b)%nat).
      { destruct (Nat.eqb_spec k (Z.to_nat idx)); [lia|]. apply nth_error_Some. congruence. }
      destruct (Nat.eqb_spec k (Z.to_nat idx)).
      + destruct (Nat.ltb_spec (Z.to_nat idx) (length b)); [|lia]. inversion Hn; subst s v.
        destruct (Z.ltb_spec (Z.of_nat k) (Z.min (step + 1) C)); [|lia].
        split; [lia|]. reflexivity.
      + specialize (Hk _ _ _ Hn).
        destruct (Z.ltb_spec (Z.of_nat k) (Z.min step C));
        destruct (Z.ltb_spec (Z.of_nat k) (Z.min (step + 1) C)); try lia; auto.
        destruct Hk; split; [lia|auto].
    - intros j k s v v' Hj Hk' Hjl Hkl.
      rewrite nth_error_upd in Hj. rewrite nth_error_upd in Hk'.
      assert (Hold : forall k s v, nth_error b k = Some (s, v) -> k <> Z.to_nat idx ->
                     Z.of_nat k < Z.min (step + 1) C -> Z.of_nat k < Z.min step C /\ s < step).
      { intros k1 s1 w1 H1 H2 H3. specialize (Hk _ _ _ H1).
        destruct (Z.ltb_spec (Z.of_nat k1) (Z.min step C)); [|lia]. lia. }
      destruct (Nat.eqb_spec j (Z.to_nat idx)), (Nat.eqb_spec k (Z.to_nat idx)); subst; auto.
      + destruct (Nat.ltb (Z.to_nat idx) (length b)); inversion Hj; subst.
        destruct (Hold _ _ _ Hk' n Hkl). lia.
      + destruct (Nat.ltb (Z.to_nat idx) (length b)); inversion Hk'; subst.
        destruct (Hold _ _ _ Hj n Hjl). lia.
      + destruct (Hold _ _ _ Hj n Hjl), (Hold _ _ _ Hk' n0 Hkl). eapply Hdist; eauto.
    - intros s v Hn Hp. rewrite nth_error_upd in Hn.
      destruct (Nat.eqb_spec 0 (Z.to_nat idx)).
      + destruct (Nat.ltb (Z.to_nat idx) (length b)); inversion Hn; subst. lia.
      + destruct (Z.eq_dec step 0); [lia|]. eapply H0; eauto; lia.
    - intros k s v Hn Hc Hp. rewrite nth_error_upd in Hn.
      destruct (Nat.eqb_spec k (Z.to_nat idx)).
      + destruct (Nat.ltb (Z.to_nat idx) (length b)); inversion Hn; subst. lia.
      + eapply H5; eauto; lia.
  Qed.

  Lemma buf_skip step b : C <= step -> buf_inv step b -> buf_inv (step + 1) b.
  Proof.
    intros HCs (Hb & Hk & Hdist & H0 & H5). unfold buf_inv. repeat split; auto.
    - intros k s v Hn. specialize (Hk _ _ _ Hn).
      destruct (Z.ltb_spec (Z.of_nat k) (Z.min step C));
      destruct (Z.ltb_spec (Z.of_nat k) (Z.min (step + 1) C)); try lia; auto.
      destruct Hk; split; [lia|auto].
    - intros. eapply Hdist; eauto; lia.
    - intros. eapply H0; eauto; lia.
    - intros. lia.
  Qed.

  Fixpoint fstate (k : nat) : fcarry :=
    match k with O => fwd_init v0 b0 | S k' => fwd_body (fstate k') end.

  Lemma C_u2 : C <= u2_minus_1 C.
  Proof. unfold u2_minus_1. apply Z.le_add_le_sub_r. apply Z.div_le_lower_bound; nia. Qed.

  Definition sw_active (step : Z) : Prop :=
    all_saved = false /\
    match max_steps with
    | Some m => m <= u2_minus_1 C \/ step < u2_minus_1 C
    | None => step < u2_minus_1 C
    end.

  Definition fwd_inv' (k : nat) (c : fcarry (N:=N) (Bf:=Bf)) : Prop :=
    f_step c = Z.of_nat k /\ (f_val c, f_bufs c) = traj k /\
    buf_inv (Z.of_nat k) (f_res c) /\
    (sw_active (Z.of_nat k) -> sw_inv (Z.of_nat k) (fst (f_save c))) /\
    wm_inv (Z.of_nat k) (snd (f_save c)).

  Lemma fwd_inv_init : fwd_inv' 0 (fwd_init v0 b0).
  Proof.
    unfold fwd_inv', fwd_init; cbn [f_step f_val f_bufs f_res f_save fst snd]. change (Z.of_nat 0) with 0.
    split; [reflexivity|]. split; [reflexivity|]. split; [|split].
    - unfold buf_inv. rewrite repeat_length. repeat split; auto; try (intros; lia).
      intros k s v Hn. destruct (Z.ltb_spec (Z.of_nat k) (Z.min 0 C)); [lia|].
      assert ((k < Z.to_nat C)%nat).
      { rewrite <- (repeat_length (intmax, fill) (Z.to_nat C)). apply nth_error_Some. congruence. }
      rewrite nth_error_repeat in Hn by lia. congruence.
    - intros _. repeat split; intros; lia.
    - unfold wm_inv. rewrite upd_length, !repeat_length. split; [auto|]. split; [auto|].
      split; [|split].
      + apply nth_error_upd_same. rewrite repeat_length. lia.
      + rewrite nth_error_repeat; auto. lia.
      + intros k l H H0. rewrite nth_error_upd in H. destruct (Nat.eqb_spec k 0); [lia|].
        assert ((k < Z.to_nat C)%nat).
        { rewrite <- (repeat_length 0 (Z.to_nat C)). apply nth_error_Some. congruence. }
        rewrite nth_error_repeat in H by lia. inversion H; lia.
  Qed.

  Lemma wm_inv_mono step st : wm_inv step st -> wm_inv (step + 1) st.
  Proof.
    destruct st. unfold wm_inv. intros (A1 & A2 & A3 & A4 & A5). do 4 (split; [assumption|]).
    intros k x Hx Hk. specialize (A5 _ _ Hx Hk). lia.
  Qed.

  Lemma should_save_key k c save idx st2 :
    fwd_inv' k c -> within C max_steps (S k) -> Z.of_nat k < intmax ->
    should_save C max_steps (f_step c) (f_save c) (map fst (f_res c)) = (save, idx, st2) ->
    (save = true -> Z.of_nat k < C /\ idx = Z.of_nat k \/ C <= Z.of_nat k /\ 1 <= idx < C) /\
    (save = false -> C <= Z.of_nat k) /\
    (sw_active (Z.of_nat k + 1) -> sw_inv (Z.of_nat k + 1) (fst st2)) /\
    wm_inv (Z.of_nat k + 1) (snd st2).
  Proof.
    intros (Hs & Hv & Hb & Hsw & Hwm) Hin Him E.
    unfold should_save in E. rewrite Hs in E. destruct all_saved eqn:Ea.
      - inversion E; subst. split; [|split; [|split]].
        + intros _. left. split; [|reflexivity]. unfold within in Hin. unfold Ckpt_Model.all_saved in Ea.
          destruct max_steps as [m|]; [|discriminate]. apply Z.eqb_eq in Ea. lia.
        + discriminate.
        + intros [Hx _]. congruence.
        + apply wm_inv_mono; auto.
      - assert (Hswact : (match max_steps with
                  | Some m => if m <=? u2_minus_1 C then false else u2_minus_1 C <=? Z.of_nat k
                  | None => u2_minus_1 C <=? Z.of_nat k end) = false <-> sw_active (Z.of_nat k)).
        { unfold sw_active. rewrite Ea. destruct max_steps; [destruct (Z.leb_spec z (u2_minus_1 C))|];
          split; intros; intuition lia. }
        destruct (match max_steps with
                  | Some m => if m <=? u2_minus_1 C then false else u2_minus_1 C <=? Z.of_nat k
                  | None => u2_minus_1 C <=? Z.of_nat k end) eqn:Ep.
        + destruct (wang_moin (snd (f_save c)) (map fst (f_res c))) as [[sv ix] wm2] eqn:Ew.
          inversion E; subst; clear E.
          assert (Hu : u2_minus_1 C <= Z.of_nat k).
          { destruct max_steps; [destruct (Z.leb_spec z (u2_minus_1 C))|]; lia. }
          assert (HCu := C_u2).
          assert (Hk1 : C <= Z.of_nat k) by lia. assert (Hk2 : 0 < Z.of_nat k) by lia.
          destruct (wm_step _ _ _ _ _ _ Hk1 Hk2 Him Hwm Hb Ew) as [H1 H2].
          split; [|split; [|split]]; cbn [fst snd]; auto.
          intros Hact. exfalso. assert (Hc : sw_active (Z.of_nat k)).
          { unfold sw_active in *. destruct Hact as [? Hact]. split; [auto|]. destruct max_steps; lia. }
          apply Hswact in Hc. discriminate.
        + destruct (stumm_walther (Z.of_nat k) (fst (f_save c))) as [[sv ix] sw2] eqn:Ew.
          inversion E; subst; clear E.
          destruct (sw_step _ _ _ _ _ (Nat2Z.is_nonneg k) (Hsw (proj1 Hswact eq_refl)) Ew) as (H1 & H2 & H3).
          split; [|split; [|split]]; cbn [fst snd]; auto.
          * intros ->. destruct (Z.lt_ge_cases (Z.of_nat k) C); [left; split; auto; apply H2; auto|right; auto].
          * intros ->. destruct (Z.lt_ge_cases (Z.of_nat k) C); auto. destruct (H2 H). discriminate.
          * apply wm_inv_mono; auto.
  Qed.

  Lemma fwd_inv_step k c :
    fwd_inv' k c -> within C max_steps (S k) -> Z.of_nat k < intmax -> fwd_inv' (S k) (fwd_body c).
  Proof.
    intros (Hs & Hv & Hb & Hsw & Hwm) Hin Him.
    unfold fwd_body.
    destruct (should_save C max_steps (f_step c) (f_save c) (map fst (f_res c)))
      as [[save idx] st2] eqn:E.
    assert (Hval : f_val c = fst (traj k)) by (rewrite <- Hv; reflexivity).
    assert (Hbuf : f_bufs c = snd (traj k)) by (rewrite <- Hv; reflexivity).
    replace (Z.of_nat (S k)) with (Z.of_nat k + 1) by lia.
    destruct (should_save_key k c save idx st2 (conj Hs (conj Hv (conj Hb (conj Hsw Hwm)))) Hin Him E) as (K1 & K2 & K3 & K4).
    unfold fwd_inv'; cbn [f_step f_val f_bufs f_res f_save fst snd].
    replace (Z.of_nat (S k)) with (Z.of_nat k + 1) by lia.
    split; [lia|]. split; [rewrite Hval, Hbuf; reflexivity|]. split; [|auto].
    - rewrite Hs, Hval. replace (fst (traj k)) with (fst (traj (Z.to_nat (Z.of_nat k)))) by (rewrite Nat2Z.id; auto).
      destruct save.
      + apply buf_save; auto. lia.
      + unfold maybe_update. apply buf_skip; auto.
  Qed.

  Lemma fwd_inv_all n : within C max_steps n -> Z.of_nat n <= intmax -> forall k, (k <= n)%nat -> fwd_inv' k (fstate k).
  Proof.
    intros Hn Him. induction k; intros Hk; [apply fwd_inv_init|].
    cbn [fstate]. apply fwd_inv_step; [apply IHk; lia| |lia].
    eapply within_le; eauto.
  Qed.
End Proofs.
