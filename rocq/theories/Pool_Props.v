(** C36: sizes and windows of [Pool]; C37: [AdaptivePool]. *)
From Verif Require Import Pool_Proofs.

(** One axis of a pooling layer: input size, paddings, kernel size, stride. *)
Record axis := { an : Z; al : Z; ar : Z; ak : Z; as_ : Z }.
Definition pool_of (ceil : bool) (axes : list axis) : pool :=
  {| nsd := length axes; kernel := map ak axes; stride := map as_ axes;
     padding := map (fun a => PPair (al a) (ar a)) axes; use_ceil := ceil |}.
(** Independent arithmetic. *)
Definition room (a : axis) : Z := (an a + al a + ar a - ak a)%Z.
Definition cdiv (m s : Z) : Z := (- ((- m) / s))%Z.
Definition out_size (ceil : bool) (a : axis) : Z :=
  Z.max 0 ((if ceil then cdiv (room a) (as_ a) else room a / as_ a) + 1).
Definition extra (ceil : bool) (a : axis) : Z := if ceil && negb (Z.eqb (room a mod as_ a) 0) then as_ a else 0%Z.
Definition accepted (ceil : bool) (a : axis) : bool := (Z.max (al a) (ar a + extra ceil a) <=? ak a)%Z.

Lemma cdiv_spec m s : (0 < s)%Z -> ((cdiv m s - 1) * s < m <= cdiv m s * s)%Z.
Proof. intros Hs. unfold cdiv. pose proof (Z.div_mod (- m) s ltac:(lia)). pose proof (Z.mod_pos_bound (- m) s Hs). nia. Qed.
Lemma cdiv_unique m s c : (0 < s)%Z -> ((c - 1) * s < m <= c * s)%Z -> c = cdiv m s.
Proof. intros Hs H. pose proof (cdiv_spec m s Hs). nia. Qed.

(** C36. Output shapes and refusals, for any number of axes. *)
Theorem C36_shape : forall ceil c axes, Forall (fun a => 0 < ak a /\ 0 < as_ a)%Z axes ->
  pool_shape (pool_of ceil axes) (c :: map an axes) =
  if forallb (accepted ceil) axes then Ok (c :: map (out_size ceil) axes) else Err RuntimeError.
Proof.
  intros ceil c axes HF. unfold pool_shape, pool_of. cbn [nsd kernel stride padding use_ceil].
  rewrite map_length, Nat.eqb_refl. cbn [negb].
  set (ps := map (fun a => PPair (al a) (ar a + extra ceil a)) axes).
  assert (H1 : (if ceil then ceil_paddings (map an axes) (map (fun a => PPair (al a) (ar a)) axes) (map ak axes) (map as_ axes)
                else Ok (map (fun a => PPair (al a) (ar a)) axes)) = Ok ps).
  { unfold ps. destruct ceil; [|f_equal; apply map_ext; intros a; unfold extra; cbn; f_equal; lia].
    induction HF as [|a axes [Hk Hs] HF IH]; cbn [map ceil_paddings]; auto. cbn [unpack bind]. unfold ceil_padding. cbn [fst snd].
    destruct (Z.eqb_spec (as_ a) 0); [lia|]. fold (room a). unfold extra at 1. cbn [andb].
    destruct (Z.eqb (room a mod as_ a) 0); cbn [bind negb fst snd]; rewrite IH; cbn [bind]; auto. do 3 f_equal. lia. }
  rewrite H1. cbn [bind]. clear H1.
  assert (H2 : check_padding ps (map ak axes) = if forallb (accepted ceil) axes then Ok tt else Err RuntimeError).
  { unfold ps. clear HF. induction axes as [|a axes IH]; cbn [map check_padding forallb]; auto. cbn [unpack bind fst snd].
    rewrite IH. unfold accepted at 2. rewrite Z.leb_antisym. destruct (ak a <? _)%Z; auto. }
  rewrite H2. destruct (forallb (accepted ceil) axes); cbn [bind]; auto. clear H2.
  assert (H3 : reduce_shape (map an axes) ps (map ak axes) (map as_ axes) = Ok (map (out_size ceil) axes)).
  { unfold ps. induction HF as [|a axes [Hk Hs] HF IH]; cbn [map reduce_shape]; auto. rewrite IH.
    destruct (Z.leb_spec (ak a) 0); [lia|]. destruct (Z.leb_spec (as_ a) 0); [lia|]. cbn [orb unpack bind]. do 2 f_equal.
    unfold out_size, window_count, extra. cbn [fst snd]. destruct ceil; cbn [andb].
    - pose proof (Z.div_mod (room a) (as_ a) ltac:(lia)) as HD. pose proof (Z.mod_pos_bound (room a) (as_ a) Hs) as HB.
      destruct (Z.eqb_spec (room a mod as_ a) 0) as [E|E]; cbn [negb].
      + rewrite Z.add_0_r. fold (room a). rewrite <- (cdiv_unique (room a) (as_ a) (room a / as_ a)); auto. nia.
      + rewrite <- (cdiv_unique (room a) (as_ a) (room a / as_ a + 1)); auto; [|nia].
        replace (an a + al a + (ar a + as_ a) - ak a)%Z with (room a + 1 * as_ a)%Z by (unfold room; lia). rewrite Z.div_add by lia. auto.
    - rewrite Z.add_0_r. auto. }
  rewrite H3. auto.
Qed.
Print Assumptions C36_shape.
(** [cdiv] is division rounding up. *)
Theorem C36_ceil_is_ceil : forall m s c, (0 < s)%Z -> (c = cdiv m s <-> ((c - 1) * s < m <= c * s)%Z).
Proof. intros m s c Hs. split; [intros ->; apply cdiv_spec; auto|apply cdiv_unique; auto]. Qed.
Print Assumptions C36_ceil_is_ceil.
(** Integers given for kernel, stride and padding stand for themselves on every axis. *)
Theorem C36_init : forall n k s p ceil,
  pool_init n (AnInt k) (AnInt s) (PadInt p) ceil =
  Ok {| nsd := n; kernel := repeat k n; stride := repeat s n; padding := repeat (PPair p p) n; use_ceil := ceil |}.
Proof. reflexivity. Qed.
Print Assumptions C36_init.
(** Sequences: kernel and stride are taken as they are, padding has one entry per axis. *)
Theorem C36_init_seq : forall n ks ss ps ceil,
  (length ps = n ->
   pool_init n (ASeq ks) (ASeq ss) (PadSeq (map (fun p => PPair (fst p) (snd p)) ps)) ceil =
     Ok {| nsd := n; kernel := ks; stride := ss; padding := map (fun p => PPair (fst p) (snd p)) ps; use_ceil := ceil |} /\
   pool_init n (ASeq ks) (ASeq ss) (PadSeq (map (fun p => PInt (fst p)) ps)) ceil =
     Ok {| nsd := n; kernel := ks; stride := ss; padding := map (fun p => PPair (fst p) (fst p)) ps; use_ceil := ceil |}).
Proof.
  intros n ks ss ps ceil H. unfold pool_init, parse_ints, parse_padding. cbn [bind]. rewrite !map_length, H, Nat.eqb_refl.
  assert (E : forallb is_seq_elem (map (fun p : Z * Z => PPair (fst p) (snd p)) ps) = true)
    by (apply forallb_forall; intros e He; apply in_map_iff in He as (q & <- & _); reflexivity).
  rewrite E. split; [reflexivity|]. rewrite map_map. cbn [bind]. destruct ps as [|q ps]; reflexivity.
Qed.
Theorem C36_init_refused : forall n k s p ceil,
  k = AnythingElse \/ s = AnythingElse \/ p = PadOther \/ (exists l, p = PadSeq l /\ length l <> n) ->
  pool_init n k s p ceil = Err ValueError.
Proof.
  intros n k s p ceil H. unfold pool_init. destruct k as [k|k|]; cbn [parse_ints bind]; [| |reflexivity];
  (destruct s as [s|s|]; cbn [parse_ints bind]; [| |reflexivity]);
  (destruct H as [H|[H|[->|(l & -> & H)]]]; try discriminate; cbn [parse_padding bind]; [reflexivity|];
   apply Nat.eqb_neq in H; rewrite H; reflexivity).
Qed.
Print Assumptions C36_init_refused.

(** The pooled values: each output folds the operation over the inputs under its window, and
    nothing else (padding is the operation's unit). *)
Theorem C36_values : forall (A : Type) (op : A -> A -> A) (init : A), (forall a, op a init = a) ->
  forall ceil l r k s x out, pool1d op init ceil l r k s x = Ok out ->
  forall j v, nth_error out j = Some v ->
    v = fold_left op (firstn (j * s + k - l - (j * s - l)) (skipn (j * s - l) x)) init.
Proof.
  intros A op init Hu ceil l r k s x out H j v Hj. unfold pool1d in H.
  apply bind_ok in H as (p & Hp & H).
  destruct (_ <? _)%Z; [discriminate|]. destruct (Nat.eqb k 0 || Nat.eqb s 0) eqn:E0; [discriminate|]. inv H. unfold reduce_window in Hj.
  apply map_nth_error with (f := fun v => v) in Hj. rewrite map_map in Hj. rewrite nth_error_map in Hj.
  destruct (nth_error (seq 0 _) j) as [j'|] eqn:Ej; [|discriminate]. cbn in Hj. inv Hj.
  assert (j' = j). { pose proof (nth_error_lt _ _ _ Ej) as Hlt. rewrite seq_length in Hlt. apply nth_error_nth with (d := 0) in Ej. rewrite seq_nth in Ej by auto. lia. }
  subst j'. rewrite window_fold by auto.
  assert (Hl : Z.to_nat (fst p) = l).
  { destruct ceil; [|inv Hp; cbn; lia]. unfold ceil_padding in Hp. destruct (Z.eqb _ 0); [discriminate|].
    destruct (Z.eqb _ 0); inv Hp; cbn; lia. }
  rewrite Hl. auto.
Qed.
Print Assumptions C36_values.

(** What [pool1d] computes is what [C36_shape] says about sizes. *)
Lemma pool1d_len {A} (op : A -> A -> A) init ceil l r k s x out : pool1d op init ceil l r k s x = Ok out ->
  let a := {| an := Z.of_nat (length x); al := Z.of_nat l; ar := Z.of_nat r; ak := Z.of_nat k; as_ := Z.of_nat s |} in
  0 < k /\ 0 < s /\ accepted ceil a = true /\ Z.of_nat (length out) = out_size ceil a.
Proof.
  intros H a. unfold pool1d in H. apply bind_ok in H as (p & Hp & H). match type of H with (if ?b then _ else _) = _ => destruct b eqn:HB; [discriminate|] end.
  destruct (Nat.eqb_spec k 0); [discriminate|]. destruct (Nat.eqb_spec s 0); [discriminate|].
  cbn [orb] in H. split; [lia|]. split; [lia|].
  assert (HP : p = (Z.of_nat l, Z.of_nat r + extra ceil a)%Z).
  { destruct ceil; [|inv Hp; f_equal; unfold extra; cbn; lia]. unfold ceil_padding in Hp. cbn [fst snd] in Hp.
    destruct (Z.eqb_spec (Z.of_nat s) 0); [lia|]. unfold extra. cbn [andb as_ a]. fold a in Hp.
    change (Z.of_nat (length x) + Z.of_nat l + Z.of_nat r - Z.of_nat k)%Z with (room a) in Hp.
    destruct (Z.eqb (room a mod Z.of_nat s) 0); inv Hp; cbn [negb]; f_equal; lia. }
  subst p. cbn [fst snd] in H, HB. assert (HX : (0 <= extra ceil a)%Z) by (unfold extra; destruct (_ && _); cbn [as_ a]; lia).
  destruct (Z.ltb_spec (Z.of_nat k) (Z.max (Z.of_nat l) (Z.of_nat r + extra ceil a))) as [|HA]; [discriminate|]. clear HB. inv H.
  split; [unfold accepted; cbn [al ar ak a]; apply Z.leb_le; lia|].
  unfold reduce_window. rewrite map_length, seq_length. unfold padded. rewrite !app_length, !repeat_length.
  rewrite Nat2Z.id. set (m := (room a + extra ceil a)%Z).
  assert (Hs : (0 < as_ a)%Z) by (cbn; lia).
  assert (HO : out_size ceil a = Z.max 0 (m / as_ a + 1)).
  { unfold out_size, m, extra. destruct ceil; cbn [andb]; [|rewrite Z.add_0_r; auto].
    pose proof (Z.div_mod (room a) (as_ a) ltac:(lia)) as HD. pose proof (Z.mod_pos_bound (room a) (as_ a) Hs) as HB.
    destruct (Z.eqb_spec (room a mod as_ a) 0) as [E|E]; cbn [negb].
    - rewrite Z.add_0_r, <- (cdiv_unique (room a) (as_ a) (room a / as_ a)); auto. nia.
    - rewrite <- (cdiv_unique (room a) (as_ a) (room a / as_ a + 1)); auto; [|nia].
      replace (room a + as_ a)%Z with (room a + 1 * as_ a)%Z by lia. rewrite Z.div_add by lia. auto. }
  rewrite HO. assert (Hm : m = (Z.of_nat (l + (length x + Z.to_nat (Z.of_nat r + extra ceil a))) - Z.of_nat k)%Z).
  { unfold m, room. cbn [an al ar ak a]. rewrite !Nat2Z.inj_add, Z2Nat.id by lia. lia. }
  destruct (Nat.ltb_spec (l + (length x + Z.to_nat (Z.of_nat r + extra ceil a))) k) as [Hlt|Hge].
  - assert (m / as_ a < 0)%Z by (apply Z.div_lt_upper_bound; [auto|]; lia). lia.
  - rewrite Nat2Z.inj_add, Nat2Z.inj_div, Nat2Z.inj_sub by auto. rewrite <- Hm. cbn [as_ a] in *.
    assert (0 <= m / Z.of_nat s)%Z by (apply Z.div_pos; lia). lia.
Qed.

(** If the paddings are smaller than the kernel, every window meets the input. *)
Theorem C36_windows_meet_input : forall (A : Type) (op : A -> A -> A) init ceil l r k s x out,
  pool1d op init ceil l r k s x = Ok out -> x <> [] -> l < k -> r < k ->
  forall j, j < length out -> exists i, i < length x /\ j * s <= i + l < j * s + k.
Proof.
  intros A op init ceil l r k s x out H Hx Hl Hr j Hj. apply pool1d_len in H as (Hk & Hs & HA & HL).
  set (a := {| an := _; al := _; ar := _; ak := _; as_ := _ |}) in *.
  assert (HN : 0 < length x) by (destruct x; [congruence|cbn; lia]).
  unfold accepted in HA. apply Z.leb_le in HA. cbn [al ar ak a] in HA.
  assert (HJ : (Z.of_nat j * Z.of_nat s < Z.of_nat (length x) + Z.of_nat l)%Z).
  { unfold out_size in HL. assert (Hsa : (0 < as_ a)%Z) by (cbn; lia). destruct ceil.
    - pose proof (cdiv_spec (room a) (as_ a) Hsa) as HC. unfold extra in HA. cbn [andb] in HA.
      destruct (Z.eqb_spec (room a mod as_ a) 0) as [E|E]; cbn [negb] in HA.
      + assert (cdiv (room a) (as_ a) * as_ a = room a)%Z.
        { symmetry. pose proof (Z.div_mod (room a) (as_ a) ltac:(lia)) as HD. rewrite <- (cdiv_unique (room a) (as_ a) (room a / as_ a)); nia. }
        unfold room in *. cbn [an al ar ak as_ a] in *. nia.
      + unfold room in *. cbn [an al ar ak as_ a] in *. nia.
    - pose proof (Z.div_mod (room a) (as_ a) ltac:(lia)) as HD. pose proof (Z.mod_pos_bound (room a) (as_ a) Hsa) as HB.
      unfold room in *. cbn [an al ar ak as_ a] in *. nia. }
  exists (if Nat.leb (j * s) l then 0 else j * s - l). destruct (Nat.leb_spec (j * s) l); nia.
Qed.
Print Assumptions C36_windows_meet_input.

(** With [use_ceil] and strides no larger than the kernel, no input element is left out. *)
Theorem C36_ceil_covers : forall (A : Type) (op : A -> A -> A) init l r k s x out,
  pool1d op init true l r k s x = Ok out -> s <= k -> k <= length x + l + r ->
  forall i, i < length x -> exists j, j < length out /\ j * s <= i + l < j * s + k.
Proof.
  intros A op init l r k s x out H Hsk Hkn i Hi. apply pool1d_len in H as (Hk & Hs & _ & HL).
  set (a := {| an := _; al := _; ar := _; ak := _; as_ := _ |}) in *.
  assert (Hsa : (0 < as_ a)%Z) by (cbn; lia). pose proof (cdiv_spec (room a) (as_ a) Hsa) as HC.
  unfold out_size in HL.
  assert (HE : (Z.of_nat (length x) + Z.of_nat l <= Z.of_nat (length out - 1) * Z.of_nat s + Z.of_nat k)%Z /\ 0 < length out).
  { assert (0 <= cdiv (room a) (as_ a))%Z by (unfold room in *; cbn [an al ar ak as_ a] in *; nia).
    assert (Hout : (Z.of_nat (length out) = cdiv (room a) (as_ a) + 1)%Z) by lia.
    split; [|lia]. unfold room in *. cbn [an al ar ak as_ a] in *. nia. }
  destruct HE as [HE HP]. pose proof (Nat.div_mod (i + l) s ltac:(lia)) as HD. pose proof (Nat.mod_upper_bound (i + l) s ltac:(lia)) as HM.
  destruct (Nat.lt_ge_cases ((i + l) / s) (length out)) as [Hlt|Hge].
  - exists ((i + l) / s). nia.
  - exists (length out - 1). nia.
Qed.
Print Assumptions C36_ceil_covers.

(** A padding as large as the kernel passes the check (whose message asks for smaller ones): then
    an output can come from padding alone. *)
Theorem C36_padding_only_refuted : exists l r k s (x : list nat) out,
  pool1d Nat.max 0 false l r k s x = Ok out /\ x <> [] /\ l <= k /\ r <= k /\
  exists j, j < length out /\ forall i, i < length x -> ~ (j * s <= i + l < j * s + k).
Proof.
  exists 2, 0, 2, 2, [7; 8], [0; 8]. split; [reflexivity|]. split; [discriminate|]. split; [auto|]. split; [auto|].
  exists 0. cbn. split; [auto|]. intros i Hi. lia.
Qed.
Print Assumptions C36_padding_only_refuted.
(** The stride is added to the padding before the check, so that [use_ceil] is refused in
    harmless cases: kernel 2, stride 3, no padding, size 3. *)
Theorem C36_ceil_refused_refuted : exists a, (0 < ak a /\ 0 < as_ a)%Z /\ al a = 0%Z /\ ar a = 0%Z /\ (ak a <= an a)%Z /\
  accepted false a = true /\ pool_shape (pool_of true [a]) [1%Z; an a] = Err RuntimeError.
Proof. exists {| an := 3; al := 0; ar := 0; ak := 2; as_ := 3 |}. cbn. repeat split; lia. Qed.
Print Assumptions C36_ceil_refused_refuted.

Example C36_ex : let a := {| an := 10; al := 1; ar := 0; ak := 4; as_ := 3 |} in
  pool_shape (pool_of true [a; a]) [5; 10; 10]%Z = Ok [5; 4; 4]%Z /\
  pool_shape (pool_of false [a; a]) [5; 10; 10]%Z = Ok [5; 3; 3]%Z.
Proof. split; reflexivity. Qed.
Example C36_ex_values : pool1d Nat.max 0 true 1 0 4 3 [3; 1; 4; 1; 5; 9; 2; 6; 5; 3] = Ok [4; 9; 9; 5] /\
  pool1d Nat.add 0 false 0 0 2 2 [1; 2; 3; 4; 5] = Ok [3; 7].
Proof. split; reflexivity. Qed.

(** C37. One axis: it works iff [1 <= t <= n]; then the axis is cut into [t] contiguous nonempty windows
    whose sizes are [n / t] or [n / t + 1], and the operation is applied to each of them. If [t]
    divides [n], it is then applied once more, to each result. *)
Theorem C37_windows : forall (A : Type) (opv : list A -> A) (ops : A -> A) t x, 0 < t <= length x ->
  exists ws, balanced x t ws /\
    adaptive1d opv ops t x = Ok (if Nat.eqb (length x mod t) 0 then map ops (map opv ws) else map opv ws).
Proof. intros A opv ops t x H. exact (adaptive1d_ok opv ops t x H). Qed.
Print Assumptions C37_windows.
Theorem C37_defined_iff : forall (A : Type) (opv : list A -> A) (ops : A -> A) t x,
  (exists out, adaptive1d opv ops t x = Ok out) <-> 0 < t <= length x.
Proof.
  intros A opv ops t x. split.
  - intros [out H]. destruct (Nat.eq_dec t 0) as [E|N]; [destruct (adaptive1d_err opv ops t x (or_introl E)); congruence|].
    destruct (Nat.lt_ge_cases (length x) t) as [Hl|Hl]; [destruct (adaptive1d_err opv ops t x (or_intror Hl)); congruence|lia].
  - intros H. destruct (adaptive1d_ok opv ops t x H) as (ws & _ & E). eauto.
Qed.
Print Assumptions C37_defined_iff.
(** So the claim holds for operations that do nothing to scalars, such as mean and max. *)
Theorem C37_once_partial : forall (A : Type) (opv : list A -> A) (ops : A -> A) t x, (forall a, ops a = a) ->
  0 < t <= length x -> exists ws, balanced x t ws /\ adaptive1d opv ops t x = Ok (map opv ws).
Proof.
  intros A opv ops t x Hid H. destruct (adaptive1d_ok opv ops t x H) as (ws & HB & E). exists ws. split; auto. rewrite E.
  destruct (Nat.eqb _ 0); auto. f_equal. rewrite map_map. apply map_ext. auto.
Qed.
Print Assumptions C37_once_partial.
(** ... and fails for others: [lambda x: jnp.sum(x) + 1] on [[1, 2, 3, 4]] with target 2. *)
Theorem C37_twice_refuted : exists (opv : list nat -> nat) (ops : nat -> nat) t x, 0 < t <= length x /\
  (forall a, ops a = opv [a]) /\ ~ exists ws, balanced x t ws /\ adaptive1d opv ops t x = Ok (map opv ws).
Proof.
  exists (fun l => fold_left Nat.add l 1), (fun a => a + 1), 2, [1; 2; 3; 4].
  split; [cbn; lia|]. split; [intros a; cbn; lia|]. intros (ws & (HC & HL & HS) & E).
  destruct ws as [|w1 [|w2 [|]]]; cbn in HL; try lia. cbn in HC. rewrite app_nil_r in HC.
  assert (E' : Ok [5; 9] = Ok [fold_left Nat.add w1 1; fold_left Nat.add w2 1]) by exact E.
  cbn in HS. assert (H1 : length w1 = 2 \/ length w1 = 3) by (apply HS; auto).
  destruct w1 as [|a [|b [|c [|]]]]; cbn in H1; try lia; cbn in HC; inv HC; cbn in E'; inv E'.
Qed.
Print Assumptions C37_twice_refuted.

(** The target: an integer for all dimensions, or a sequence with one integer per dimension. *)
Theorem C37_target : forall n t l, adaptive_init n t = Ok l <->
  (exists z, t = AnInt z /\ l = repeat z n) \/ (t = ASeq l /\ length l = n).
Proof.
  intros n t l. unfold adaptive_init. split.
  - destruct t as [z|s|]; intros H; [left|right|discriminate].
    + exists z. split; [reflexivity|congruence].
    + destruct (Nat.eqb_spec (length s) n) as [E|E]; [|discriminate]. split; congruence.
  - intros [(z & -> & ->)|[-> <-]]; [reflexivity|]. rewrite Nat.eqb_refl. reflexivity.
Qed.
Theorem C37_target_error : forall n t e, adaptive_init n t = Err e -> e = ValueError.
Proof. intros n [z|s|] e H; cbn in H; [discriminate| |congruence]. destruct (Nat.eqb (length s) n); congruence. Qed.
Print Assumptions C37_target.
(** Any number of axes. [pooled] says that the axes are pooled one after the other, each along the
    lines of the array in that direction. *)
Theorem C37_axes : forall (A : Type) (opv : list A -> A) (ops : A -> A) c ns ts (x : list nat -> A),
  length ns = length ts -> (forall j n t, nth_error ns j = Some n -> nth_error ts j = Some t -> 0 < t <= n) ->
  exists y, adaptive_pool opv ops ts (c :: ns, x) = Ok y /\ fst y = c :: ts /\ pooled opv ops 1 ts (c :: ns, x) y.
Proof.
  intros A opv ops c ns ts x Hl Hts. unfold adaptive_pool. cbn [fst length]. rewrite Hl, Nat.eqb_refl. cbn [negb].
  destruct (adaptive_axes_ok opv ops ts 1 (c :: ns, x)) as (z & Hz & Hp).
  - lia.
  - cbn. lia.
  - intros j t Hj. cbn [Nat.add fst nth]. destruct (nth_error_ge_ex ns j) as [n Hn]; [apply nth_error_lt in Hj; lia|].
    rewrite (nth_error_nth ns j 0 Hn). eauto.
  - cbn [fst length] in Hz. rewrite Hl in Hz. exists z. split; auto. split; [|auto].
    rewrite (pooled_shape _ _ _ _ _ _ Hp) by (cbn; lia). reflexivity.
Qed.
Print Assumptions C37_axes.
Definition ex_arr : arr nat := ([1; 2; 5], fun idx => nth 1 idx 0 * 10 + nth 2 idx 0).
Example C37_ex : match adaptive_pool (fun l => fold_left Nat.max l 0) (fun a => a) [1; 2] ex_arr with
  | Ok y => fst y = [1; 1; 2] /\ snd y [0; 0; 0] = 12 /\ snd y [0; 0; 1] = 14
  | Err _ => False end.
Proof. cbn. auto. Qed.
Example C37_ex1 : adaptive1d (fun l => fold_left Nat.add l 0) (fun a => a) 3 [1; 2; 3; 4; 5; 6; 7] = Ok [6; 9; 13] /\
  adaptive1d (fun l => fold_left Nat.add l 0) (fun a => a) 3 [1; 2] = Err TypeError.
Proof. split; reflexivity. Qed.
Print Assumptions C36_init_seq.
Print Assumptions C37_target_error.

(** Inputs of the wrong rank are refused before anything else. *)
Theorem C36_rank_refused : forall m shape, length shape <> S (nsd m) -> pool_shape m shape = Err AssertionError.
Proof.
  intros m [|c ns] H; [reflexivity|]. cbn [pool_shape]. cbn [length] in H.
  destruct (Nat.eqb_spec (length ns) (nsd m)) as [E|E]; [congruence|reflexivity].
Qed.
Print Assumptions C36_rank_refused.
(** ... so are, in one dimension, empty windows and paddings that are larger than the window. *)
Theorem C36_values_refused : forall (A : Type) (op : A -> A -> A) (init : A) l r k s x,
  (s = 0 -> pool1d op init true l r k s x = Err ZeroDivisionError) /\
  (k < l \/ k < r -> 0 < s -> forall ceil, pool1d op init ceil l r k s x = Err RuntimeError) /\
  (k < l \/ k < r -> pool1d op init false l r k s x = Err RuntimeError) /\
  (l <= k -> r <= k -> k = 0 \/ s = 0 -> pool1d op init false l r k s x = Err TypeError).
Proof.
  intros A op init l r k s x. split; [|split; [|split]].
  - intros ->. reflexivity.
  - intros H Hs ceil. unfold pool1d. destruct ceil; cbn [bind fst snd].
    + unfold ceil_padding. cbn [fst snd]. destruct (Z.eqb_spec (Z.of_nat s) 0); [lia|]. destruct (Z.eqb _ 0); cbn [bind fst snd];
      match goal with |- context [(?a <? ?b)%Z] => destruct (Z.ltb_spec a b) end; (reflexivity || lia).
    + match goal with |- context [(?a <? ?b)%Z] => destruct (Z.ltb_spec a b) end; (reflexivity || lia).
  - intros H. unfold pool1d. cbn [bind fst snd]. match goal with |- context [(?a <? ?b)%Z] => destruct (Z.ltb_spec a b) end; (reflexivity || lia).
  - intros Hl Hr H. unfold pool1d. cbn [bind fst snd]. match goal with |- context [(?a <? ?b)%Z] => destruct (Z.ltb_spec a b) end; [lia|].
    replace (Nat.eqb k 0 || Nat.eqb s 0)%bool with true; [reflexivity|]. symmetry. apply orb_true_iff. destruct H as [-> | ->]; [left|right]; reflexivity.
Qed.
Print Assumptions C36_values_refused.
(** A call in any number of dimensions with a layer as made by the constructor: what can be raised, and when. Integers mixed with sequences in [padding] are
    accepted by the constructor and refused by the call. *)
Definition pair_of (e : pad_elem) : bool := match e with PPair _ _ => true | _ => false end.
Lemma check_err ps ks e : check_padding ps ks = Err e -> (e = RuntimeError \/ e = ValueError /\ In POther ps \/ e = TypeError /\ exists q, In q ps /\ pair_of q = false).
Proof.
  revert ks. induction ps as [|p ps IH]; intros [|k ks]; cbn [check_padding]; try discriminate. destruct p as [z|a b| |]; cbn [unpack bind]; try (intros [= <-]).
  - right; right. split; [auto|]. exists (PInt z). cbn; auto.
  - destruct (_ <? _)%Z; [intros [= <-]; auto|]. intros H. apply IH in H as [|[[H1 H2]|(H1 & q & H2 & H3)]]; [auto|right; left; cbn; auto|right; right; split; [auto|exists q; cbn; auto]].
  - right; left. cbn; auto.
  - right; right. split; [auto|]. exists PNested. cbn; auto.
Qed.
Lemma ceil_err ns : forall ps ks ss e, ceil_paddings ns ps ks ss = Err e ->
  (e = ZeroDivisionError /\ In 0%Z ss \/ e = ValueError /\ In POther ps \/ e = TypeError /\ exists q, In q ps /\ pair_of q = false).
Proof.
  induction ns as [|n ns IH]; intros [|p ps] [|k ks] [|s ss] e; cbn [ceil_paddings]; try discriminate. destruct p as [z|a b| |]; cbn [unpack bind]; try (intros [= <-]).
  - right; right. split; [auto|]. exists (PInt z). cbn; auto.
  - unfold ceil_padding. destruct (Z.eqb_spec s 0) as [->|]; cbn [bind]; [intros [= <-]; left; cbn; auto|].
    destruct (Z.eqb _ 0); cbn [bind]; (destruct (ceil_paddings ns ps ks ss) as [qs|e'] eqn:E; cbn [bind]; [discriminate|]); intros [= <-];
    apply IH in E as [[H1 H2]|[[H1 H2]|(H1 & q & H2 & H3)]]; [left; cbn; auto|right; left; cbn; auto|right; right; split; [auto|exists q; cbn; auto]|
      left; cbn; auto|right; left; cbn; auto|right; right; split; [auto|exists q; cbn; auto]].
  - right; left. cbn; auto.
  - right; right. split; [auto|]. exists PNested. cbn; auto.
Qed.
Lemma ceil_pairs ns : forall ps ks ss qs, ceil_paddings ns ps ks ss = Ok qs -> Forall (fun q => pair_of q = true) qs.
Proof.
  induction ns as [|n ns IH]; intros [|p ps] [|k ks] [|s ss] qs; cbn [ceil_paddings]; try (intros [= <-]; constructor).
  destruct (unpack p) as [p'|]; cbn [bind]; [|discriminate]. destruct (ceil_padding n p' k s); cbn [bind]; [|discriminate].
  destruct (ceil_paddings ns ps ks ss) eqn:E; cbn [bind]; [|discriminate]. intros [= <-]. constructor; [reflexivity|]. exact (IH _ _ _ _ E).
Qed.
Lemma reduce_err ns : forall ps ks ss e, reduce_shape ns ps ks ss = Err e -> e = TypeError \/ e = ValueError /\ In POther ps.
Proof.
  induction ns as [|n ns IH]; intros [|p ps] [|k ks] [|s ss] e; cbn [reduce_shape]; try discriminate; try (intros [= <-]; auto).
  destruct (_ || _)%bool; [intros [= <-]; auto|]. destruct p as [z|a b| |]; cbn [unpack bind]; try (intros [= <-]; cbn; auto).
  destruct (reduce_shape ns ps ks ss) eqn:E; cbn [bind]; [discriminate|]. intros [= <-]. apply IH in E as [|[H1 H2]]; [auto|right; cbn; auto].
Qed.
Theorem C36_errors : forall m shape e, pool_shape m shape = Err e ->
  match e with
  | AssertionError => length shape <> S (nsd m)
  | RuntimeError | TypeError => length shape = S (nsd m)
  | ZeroDivisionError => use_ceil m = true /\ In 0%Z (stride m)
  | ValueError => In POther (padding m)
  | _ => False
  end.
Proof.
  intros m [|c ns] e H; cbn [pool_shape length] in *; [injection H as <-; discriminate|].
  destruct (Nat.eqb_spec (length ns) (nsd m)) as [El|El]; cbn [negb] in H; [|injection H as <-; congruence].
  destruct (use_ceil m) eqn:Ec.
  - destruct (ceil_paddings ns (padding m) (kernel m) (stride m)) as [ps|e'] eqn:E1; cbn [bind] in H.
    + assert (NP : ~ In POther ps) by (intros HI; apply ceil_pairs in E1; rewrite Forall_forall in E1; specialize (E1 _ HI); discriminate).
      destruct (check_padding ps (kernel m)) eqn:E2; cbn [bind] in H.
      * destruct (reduce_shape _ _ _ _) eqn:E3; cbn [bind] in H; [discriminate|]. injection H as <-. apply reduce_err in E3 as [->|[-> HI]]; [congruence|contradiction].
      * injection H as <-. apply check_err in E2 as [->|[[-> HI]|(-> & _)]]; [congruence|contradiction|congruence].
    + injection H as <-. apply ceil_err in E1 as [[-> HI]|[[-> HI]|(-> & _)]]; [auto|auto|congruence].
  - cbn [bind] in H. destruct (check_padding (padding m) (kernel m)) eqn:E2; cbn [bind] in H.
    + destruct (reduce_shape _ _ _ _) eqn:E3; cbn [bind] in H; [discriminate|]. injection H as <-. apply reduce_err in E3 as [->|[-> HI]]; [congruence|auto].
    + injection H as <-. apply check_err in E2 as [->|[[-> HI]|(-> & _)]]; [congruence|auto|congruence].
Qed.
Print Assumptions C36_errors.
(** Windows or strides that are not positive are refused where the paddings fit; so is a wrong number of them. *)
Theorem C36_windows_refused : forall ceil c ns ps ks ss, length ns = length ps ->
  (forall e, pool_shape {| nsd := length ns; kernel := ks; stride := ss; padding := map (fun p => PPair (fst p) (snd p)) ps; use_ceil := ceil |} (c :: ns) = Err e ->
     e = RuntimeError \/ e = TypeError \/ e = ZeroDivisionError) /\
  ((length ks <> length ns \/ length ss <> length ns \/ (exists k, In k ks /\ k <= 0)%Z \/ (exists s, In s ss /\ s <= 0)%Z) ->
   forall out, pool_shape {| nsd := length ns; kernel := ks; stride := ss; padding := map (fun p => PPair (fst p) (snd p)) ps; use_ceil := ceil |} (c :: ns) <> Ok out).
Proof.
  intros ceil c ns ps ks ss Hl. split.
  - intros e H. apply C36_errors in H. cbn [nsd padding use_ceil stride length] in H.
    assert (N : ~ In POther (map (fun p : Z * Z => PPair (fst p) (snd p)) ps)) by (rewrite in_map_iff; intros (p & E & _); discriminate).
    destruct e; try contradiction; auto; congruence.
  - intros HB out H. cbn [pool_shape nsd kernel stride padding use_ceil] in H. rewrite Nat.eqb_refl in H. cbn [negb] in H.
    match type of H with bind ?x _ = _ => destruct x as [qs|]; cbn [bind] in H; [|discriminate] end.
    destruct (check_padding qs ks); cbn [bind] in H; [|discriminate]. destruct (reduce_shape ns qs ks ss) as [o|] eqn:E; cbn [bind] in H; [|discriminate].
    clear H Hl. revert qs ks ss o HB E. induction ns as [|n ns IH]; intros [|q qs] [|k ks] [|s ss] o HB E; cbn [reduce_shape] in E; try discriminate.
    + destruct HB as [H|[H|[(k & [] & _)|(s & [] & _)]]]; cbn in H; lia.
    + destruct ((k <=? 0)%Z || (s <=? 0)%Z)%bool eqn:B; [discriminate|]. apply orb_false_iff in B as [B1 B2]. apply Z.leb_gt in B1, B2.
      destruct (unpack q); cbn [bind] in E; [|discriminate]. destruct (reduce_shape ns qs ks ss) as [o'|] eqn:E'; cbn [bind] in E; [|discriminate].
      apply (IH qs ks ss o'); auto. cbn [length] in HB. destruct HB as [H|[H|[(k' & [<-|H] & H')|(s' & [<-|H] & H')]]]; try lia; eauto 6.
Qed.
Print Assumptions C36_windows_refused.
(** Integers mixed with sequences: the constructor takes them, every call fails. *)
Lemma reduce_pairs ns : forall ps ks ss o, reduce_shape ns ps ks ss = Ok o -> length ps = length ns /\ Forall (fun q => pair_of q = true) ps.
Proof.
  induction ns as [|n ns IH]; intros [|p ps] [|k ks] [|s ss] o; cbn [reduce_shape]; try discriminate; [split; auto|].
  destruct (_ || _)%bool; [discriminate|]. destruct p as [z|a b| |]; cbn [unpack bind]; try discriminate.
  destruct (reduce_shape ns ps ks ss) eqn:E; cbn [bind]; [|discriminate]. intros _. apply IH in E as [E1 E2]. cbn [length]. split; [congruence|].
  constructor; [reflexivity|exact E2].
Qed.
Lemma ceil_all ns : forall ps ks ss qs, ceil_paddings ns ps ks ss = Ok qs -> length qs = length ps -> Forall (fun q => pair_of q = true) ps.
Proof.
  induction ns as [|n ns IH]; intros [|p ps] [|k ks] [|s ss] qs; cbn [ceil_paddings]; intros H L; try (constructor; fail);
    try (injection H as <-; discriminate L).
  destruct p as [z|a b| |]; cbn [unpack bind] in H; try discriminate.
  destruct (ceil_padding n _ k s); cbn [bind] in H; [|discriminate].
  destruct (ceil_paddings ns ps ks ss) eqn:E; cbn [bind] in H; [|discriminate]. injection H as <-. cbn [length] in L.
  constructor; [reflexivity|]. eapply IH; [exact E|congruence].
Qed.
Theorem C36_mixed : forall n ks ss l ceil z e, length l = n -> In (PInt z) l -> In e l -> is_seq_elem e = true ->
  exists m, pool_init n (ASeq ks) (ASeq ss) (PadSeq l) ceil = Ok m /\ forall shape out, pool_shape m shape <> Ok out.
Proof.
  intros n ks ss l ceil z e L Hz He Hs. unfold pool_init, parse_ints, parse_padding. cbn [bind]. rewrite L, Nat.eqb_refl.
  destruct (forallb is_seq_elem l) eqn:F; [rewrite forallb_forall in F; discriminate (F _ Hz)|]. cbn [bind]. eexists. split; [reflexivity|].
  set (l' := map _ l). assert (L' : length l' = n) by (unfold l'; rewrite map_length; exact L).
  assert (HN : ~ Forall (fun q => pair_of q = true) l').
  { rewrite Forall_forall. intros HF. specialize (HF PNested). discriminate HF. unfold l'. apply in_map_iff. exists e. split; [destruct e; [discriminate Hs|..]; reflexivity|exact He]. }
  clearbody l'. intros [|c ns] out H; cbn [pool_shape nsd kernel stride padding use_ceil] in H; [discriminate|].
  destruct (Nat.eqb_spec (length ns) n) as [E|E]; cbn [negb] in H; [|discriminate].
  match type of H with bind ?x _ = _ => destruct x as [qs|] eqn:EQ; cbn [bind] in H; [|discriminate] end.
  destruct (check_padding qs ks); cbn [bind] in H; [|discriminate]. destruct (reduce_shape ns qs ks ss) as [o|] eqn:ER; cbn [bind] in H; [|discriminate].
  apply reduce_pairs in ER as [R1 R2]. apply HN. destruct ceil; [|congruence]. eapply ceil_all; [exact EQ|congruence].
Qed.
Print Assumptions C36_mixed.
Example C36_mixed_ex : exists m, pool_init 2 (ASeq [2; 2]%Z) (ASeq [1; 1]%Z) (PadSeq [PInt 1; PPair 1 1]) false = Ok m /\ pool_shape m [1; 4; 4]%Z = Err TypeError.
Proof. eexists. split; reflexivity. Qed.
(** [AdaptivePool] on an input of the wrong rank, and on an axis that is too short. *)
Theorem C37_refused : forall (A : Type) (opv : list A -> A) (ops : A -> A) ts x,
  length (fst x) <> S (length ts) -> adaptive_pool opv ops ts x = Err ValueError.
Proof.
  intros A opv ops ts x H. unfold adaptive_pool. apply Nat.eqb_neq in H. rewrite H. reflexivity.
Qed.
Print Assumptions C37_refused.
Theorem C37_axis_refused : forall (A : Type) (opv : list A -> A) (ops : A -> A) t (x : list A),
  (t = 0 -> adaptive1d opv ops t x = Err ZeroDivisionError) /\
  (length x < t -> adaptive1d opv ops t x = Err TypeError).
Proof.
  intros A opv ops t x. split; [intros ->; reflexivity|]. intros H. unfold adaptive1d. destruct (Nat.eqb_spec t 0); [lia|].
  rewrite Nat.mod_small, Nat.div_small by lia. cbn [Nat.add]. rewrite Nat.mul_1_r.
  destruct (Nat.eqb_spec (length x) 0) as [E|E]; cbn [negb]; [reflexivity|].
  unfold reshape_m. destruct (Nat.eqb_spec (length x) 0); [lia|]. rewrite firstn_all. rewrite Nat.mod_same by lia. reflexivity.
Qed.
Print Assumptions C37_axis_refused.
