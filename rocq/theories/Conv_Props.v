(** C38: sizes of [ConvTranspose]; C39: its check on [output_padding]; C59: it is the linear
    transpose of [Conv]; C60: the fixed-dimension subclasses and the check on [groups]. *)
From Verif Require Import Conv_Proofs2.
From Coq Require Import Ring_theory Ring.

(** C38. The documented sizes, for any number of axes. [n] gives the size of the input on each axis. *)
Definition size_explicit (a : axis) (n : Z) : Z := (n - 1) * as_ a + ad a * (ak a - 1) + 1 - ap0 a - ap1 a + ao a.
Definition size_same (a : axis) (n : Z) : Z := n * as_ a - ao a.

Lemma convt_shape {R} (rO : R) radd rmul t axes ci co g w b (y x' : @tensor R) n :
  wsh w = map ak axes -> tsh y = map n axes ->
  convt_call rO radd rmul (layer_of t Zeros axes ci co g) w b y = Ok x' -> tsh x' = map (fun a => tsize t a (n a)) axes.
Proof.
  intros Hw Hy H. unfold convt_call in H. destruct (negb _); [discriminate|]. rewrite padding_transpose_of in H.
  cbn [bind pmode layer_of stride nsd dilation groups] in H. apply bind_ok in H as (z & Hz & H). apply conv_gd_inv in Hz as (_ & _ & _ & _ & ->).
  injection H as <-. assert (E : forall z, tsh (add_bias radd b z) = tsh z) by (destruct b; auto). rewrite E. cbn [tsh]. rewrite Hy, Hw. apply out_sizes_convt.
Qed.

Theorem C38_size_explicit : forall (R : Type) (rO : R) radd rmul axes ci co g w b (y x' : @tensor R) n,
  Forall ok_axis axes -> Forall (fun a => 1 <= n a) axes -> wsh w = map ak axes -> tsh y = map n axes ->
  convt_call rO radd rmul (layer_of KExplicit Zeros axes ci co g) w b y = Ok x' ->
  tsh x' = map (fun a => Z.max 0 (size_explicit a (n a))) axes.
Proof.
  intros R rO radd rmul axes ci co g w b y x' n Hok Hn Hw Hy H. rewrite (convt_shape _ _ _ _ _ _ _ _ _ _ _ _ _ Hw Hy H). clear - Hok Hn.
  induction Hok as [|a l Ha Hok IH]; auto. inversion Hn; subst. cbn [map]. rewrite IH, tsize_explicit by auto. auto.
Qed.
Print Assumptions C38_size_explicit.
Theorem C38_size_same : forall (R : Type) (rO : R) radd rmul t axes ci co g w b (y x' : @tensor R) n,
  is_same t = true -> Forall ok_axis axes -> Forall (fun a => 1 <= n a) axes -> wsh w = map ak axes -> tsh y = map n axes ->
  convt_call rO radd rmul (layer_of t Zeros axes ci co g) w b y = Ok x' ->
  tsh x' = map (fun a => Z.max 0 (size_same a (n a))) axes.
Proof.
  intros R rO radd rmul t axes ci co g w b y x' n Hs Hok Hn Hw Hy H. rewrite (convt_shape _ _ _ _ _ _ _ _ _ _ _ _ _ Hw Hy H). clear - Hok Hn Hs.
  induction Hok as [|a l Ha Hok IH]; auto. inversion Hn; subst. cbn [map]. rewrite IH, tsize_same by auto. auto.
Qed.
Print Assumptions C38_size_same.

(** [Conv] maps the size back: one axis, input size replaced by [m]. *)
Definition at_size (a : axis) (m : Z) : axis :=
  {| am := m; ak := ak a; as_ := as_ a; ad := ad a; ao := ao a; ap0 := ap0 a; ap1 := ap1 a |}.
Theorem C38_conv_inverts_explicit : forall a n, ok_axis a -> 1 <= n -> 0 <= ao a < as_ a -> 0 <= size_explicit a n ->
  csize KExplicit (at_size a (tsize KExplicit a n)) = n.
Proof.
  intros a n Ha Hn Ho Hp. rewrite tsize_explicit by auto. fold (size_explicit a n). rewrite Z.max_r by auto. destruct Ha as (_ & Hk & Hs & Hd).
  unfold csize, out_size, at_size, cpad. cbn [am ak as_ ad ap0 ap1 fst snd]. rewrite dil1 by auto. rewrite dil_win by auto.
  unfold size_explicit, win_size. replace (_ - (ad a * (ak a - 1) + 1)) with (ao a + (n - 1) * as_ a) by lia.
  rewrite Z.div_add, Z.div_small by lia. lia.
Qed.
Print Assumptions C38_conv_inverts_explicit.
Theorem C38_conv_inverts_same : forall t a n, is_same t = true -> ok_axis a -> 1 <= n -> 0 <= ao a < as_ a ->
  csize t (at_size a (tsize t a n)) = n.
Proof.
  intros t a n Ht Ha Hn Ho. rewrite tsize_same by auto. destruct Ha as (H0 & Hk & Hs & Hd). assert (1 <= n * as_ a - ao a) by nia. rewrite Z.max_r by lia.
  rewrite csize_same; cbn [am at_size as_]; [|auto|repeat split; cbn; lia|auto].
  replace (- (n * as_ a - ao a)) with (ao a + (- n) * as_ a) by lia. rewrite Z.div_add, Z.div_small by lia. lia.
Qed.
Print Assumptions C38_conv_inverts_same.
(** Every input size of [Conv] is reached, by exactly one [output_padding]. *)
Theorem C38_every_size_reached : forall t a, ok_axis a -> 1 <= am a -> 1 <= csize t a ->
  exists o, 0 <= o < as_ a /\
    (forall o', 0 <= o' < as_ a ->
      (tsize t {| am := am a; ak := ak a; as_ := as_ a; ad := ad a; ao := o'; ap0 := ap0 a; ap1 := ap1 a |} (csize t a) = am a <-> o' = o)).
Proof.
  intros t a Ha Hm Hn. pose proof Ha as (_ & Hk & Hs & Hd).
  destruct (is_same t) eqn:Ht.
  - rewrite csize_same in * by auto. pose proof (ceil_bounds (am a) (as_ a) Hs) as HB. set (n := - ((- am a) / as_ a)) in *.
    exists (n * as_ a - am a). split; [lia|]. intros o' Ho'. rewrite tsize_same; [|auto|auto|repeat split; cbn; lia]. cbn [as_ ao]. clear - HB Hm Ho' Hn Hs. nia.
  - set (p := cpad t a). exists ((am a + fst p + snd p - win_size a) mod as_ a). split; [apply Z.mod_pos_bound; lia|]. intros o' Ho'.
    assert (HT : tsize t {| am := am a; ak := ak a; as_ := as_ a; ad := ad a; ao := o'; ap0 := ap0 a; ap1 := ap1 a |} (csize t a)
      = Z.max 0 ((csize t a - 1) * as_ a + win_size a - fst p - snd p + o')).
    { destruct t; try discriminate; unfold p, win_size; [rewrite tsize_valid|rewrite tsize_explicit]; auto; try (repeat split; cbn; lia); cbn [as_ ad ak ao ap0 ap1 cpad fst snd]; f_equal; lia. }
    rewrite HT. clear HT. unfold csize, out_size in *. rewrite dil1, dil_win in * by (auto; lia). fold p in Hn |- *.
    pose proof (Z.div_mod (am a + fst p + snd p - win_size a) (as_ a) ltac:(lia)) as HD. pose proof (Z.mod_pos_bound (am a + fst p + snd p - win_size a) (as_ a) ltac:(lia)) as HB.
    set (q := (am a + fst p + snd p - win_size a) / as_ a) in *. set (r := (am a + fst p + snd p - win_size a) mod as_ a) in *. clearbody q r p.
    assert (HQ : Z.max 0 (q + 1) = q + 1) by lia. rewrite HQ. replace (q + 1 - 1) with q by lia. split; intros; lia.
Qed.
Print Assumptions C38_every_size_reached.

Definition ex_axis : axis := {| am := 5; ak := 3; as_ := 2; ad := 1; ao := 0; ap0 := 1; ap1 := 1 |}.
Definition ex_axis2 : axis := {| am := 6; ak := 4; as_ := 3; ad := 2; ao := 0; ap0 := 0; ap1 := 0 |}.
Example C38_ex : ok_axis ex_axis /\ csize KExplicit ex_axis = 3 /\ tsize KExplicit ex_axis 3 = 5 /\ size_explicit ex_axis 3 = 5 /\
  csize KSame ex_axis2 = 2 /\ tsize KSame ex_axis2 2 = 6.
Proof. repeat split; vm_compute; congruence. Qed.

(** C39. Rejections are right ... *)
Theorem C39_reject_sound : forall s a, opad_check s a = Err ValueError -> List.length s = List.length a ->
  exists i si ai, nth_error s i = Some si /\ nth_error a i = Some ai /\ si <= ai.
Proof.
  intros s a H Hl. unfold opad_check in H. destruct (existsb _ _) eqn:E; [|discriminate].
  apply existsb_exists in E as ([s0 a0] & Hin & Hge). unfold tuple_ge in Hge. apply negb_true_iff in Hge.
  assert (HN : s <> []) by (intros ->; destruct Hin). clear Hin H.
  revert a Hl Hge HN. induction s as [|x s IH]; intros [|y a] Hl Hge HN; cbn in Hl; try lia; [congruence|]. cbn [tuple_lt] in Hge.
  destruct (Z.eqb_spec y x) as [->|N]; [|exists 0%nat, x, y; cbn; repeat split; lia]. exists 0%nat, x, x. cbn. repeat split; lia.
Qed.
Print Assumptions C39_reject_sound.
(** ... and complete if both were given as integers; ... *)
Theorem C39_ints : forall n inc outc k s p a d g b m dt, (0 < n)%nat -> s <= a ->
  (exists kk, ntuple n k = Ok kk) -> (exists dd, ntuple n d = Ok dd) ->
  convt_init n inc outc k (AnInt s) p (AnInt a) d g b m dt = Err ValueError.
Proof.
  intros n inc outc k s p a d g b m dt Hn Hsa [kk Hk] [dd Hd]. unfold convt_init. rewrite Hk. cbn [bind ntuple]. rewrite Hd. cbn [bind].
  assert (E : opad_check (repeat s n) (repeat a n) = Err ValueError); [|rewrite E; auto].
  unfold opad_check. assert (HG : tuple_ge (repeat a n) (repeat s n) = true).
  { unfold tuple_ge. apply negb_true_iff. clear Hn Hk Hd. induction n as [|n IH]; cbn [repeat tuple_lt]; auto. destruct (Z.eqb_spec a s) as [E|E]; [apply IH|]. apply Z.ltb_ge. lia. }
  rewrite HG. destruct n; [lia|]. reflexivity.
Qed.
Print Assumptions C39_ints.
(** ... but not in general: the tuples are compared as wholes, in lexicographic order. *)
Theorem C39_exactly : forall s a, List.length s = List.length a -> s <> [] ->
  (opad_check s a = Ok tt <-> tuple_lt a s = true).
Proof.
  intros s a Hl HN. unfold opad_check, tuple_ge. destruct s as [|x s]; [congruence|]. destruct a as [|y a]; [discriminate|].
  cbn [List.combine existsb]. destruct (tuple_lt (y :: a) (x :: s)); cbn [negb orb]; [|split; discriminate].
  destruct (existsb _ _) eqn:E; [|split; auto]. apply existsb_exists in E as (? & _ & E). discriminate.
Qed.
Print Assumptions C39_exactly.
Theorem C39_refuted : exists n inc outc k s p a d g b m dt l i si ai,
  convt_init n inc outc k s p a d g b m dt = Ok l /\
  nth_error (stride l) i = Some si /\ nth_error (opad l) i = Some ai /\ si <= ai.
Proof.
  exists 2%nat, 1, 1, (AnInt 3), (ASeq [2; 1]), (PadInt 0), (ASeq [1; 5]), (AnInt 1), 1, false, "ZEROS"%string, None.
  eexists. exists 1%nat, 1, 5. split; [vm_compute; reflexivity|]. cbn. repeat split. lia.
Qed.
Print Assumptions C39_refuted.

(** C59. With the weights of the recipe (lines 478-488), [ConvTranspose] is the linear transpose of
    [Conv], over any commutative semiring, for any number of axes, kernels, strides, dilations and paddings, without groups.
    The shape condition picks the right [output_padding]; see C38_every_size_reached. *)
Theorem C59_transpose : forall (R : Type) (rO rI : R) radd rmul, semi_ring_theory rO rI radd rmul eq ->
  forall t axes ci co w (x y z x' : @tensor R), Forall ok_axis axes ->
  wsh w = map ak axes -> tsh x = map am axes ->
  conv_call rO radd rmul (layer_of t Zeros axes ci co 1) w None x = Ok z ->
  tch y = tch z -> tsh y = tsh z ->
  convt_call rO radd rmul (layer_of t Zeros axes co ci 1) (transpose_weight w) None y = Ok x' ->
  tsh x' = tsh x ->
  tch x' = tch x /\ dot rO radd rmul z y = dot rO radd rmul x x'.
Proof. intros R rO rI radd rmul Rth. exact (adjoint_zeros rO rI radd rmul Rth). Qed.
Print Assumptions C59_transpose.
(** The same for circular padding: "the extra connectivity is correctly taken into account". *)
Theorem C59_transpose_circular : forall (R : Type) (rO rI : R) radd rmul, semi_ring_theory rO rI radd rmul eq ->
  forall t axes ci co w (x y z x' : @tensor R), Forall ok_axis axes -> Forall (fun a => ao a = 0) axes -> is_same t = true ->
  wsh w = map ak axes -> tsh x = map am axes ->
  conv_call rO radd rmul (layer_of t Circular axes ci co 1) w None x = Ok z ->
  tch y = tch z -> tsh y = tsh z ->
  convt_call rO radd rmul (layer_of t Circular axes co ci 1) (transpose_weight w) None y = Ok x' ->
  tsh x' = tsh x ->
  tch x' = tch x /\ dot rO radd rmul z y = dot rO radd rmul x x'.
Proof. intros R rO rI radd rmul Rth. exact (adjoint_circular rO rI radd rmul Rth). Qed.
Print Assumptions C59_transpose_circular.
(** With two or more groups the recipe's weights have the wrong shape: the call always fails. *)
Theorem C59_groups_refuted : forall (R : Type) (rO : R) radd rmul l w b (x y z : @tensor R),
  2 <= groups l -> 1 <= wout w -> conv_call rO radd rmul l w b x = Ok z -> tch y = wout w ->
  forall lt, groups lt = groups l -> convt_call rO radd rmul lt (transpose_weight w) b y <> Ok x.
Proof.
  intros R rO radd rmul l w b x y z Hg Hw Hc Hy lt Hlt H. unfold convt_call in H. destruct (negb _); [discriminate|].
  apply bind_ok in H as (ps & _ & H). apply bind_ok in H as ([yp pt] & Hyp & H). apply bind_ok in H as (x0 & Hx & _).
  apply conv_gd_inv in Hx as (_ & HQ & _). assert (E : tch yp = tch y).
  { destruct (pmode lt); try (injection Hyp as -> _; auto). unfold circular_pad in Hyp. apply bind_ok in Hyp as (yq & Hq & Hyp). injection Hyp as -> _.
    apply jpad_inv in Hq. rewrite Hq. auto. }
  rewrite E, Hy, Hlt in HQ. cbn [win transpose_weight] in HQ. assert (wout w / groups l < wout w) by (apply Z.div_lt; lia). lia.
Qed.
Print Assumptions C59_groups_refuted.
Definition zt (ch : Z) (sh : list Z) (f : Z -> list Z -> Z) : @tensor Z := {| tch := ch; tsh := sh; tval := f |}.
Definition ex_w : @weight Z := {| wout := 2; win := 1; wsh := [3]; wval := fun a _ j => 1 + 3 * a + hd 0 j |}.
Example C59_ex : forall m, m = Zeros \/ m = Circular ->
  let t := match m with Zeros => KExplicit | _ => KSame end in
  let a := match m with Zeros => ex_axis | _ => {| am := 4; ak := 3; as_ := 2; ad := 1; ao := 0; ap0 := 0; ap1 := 0 |} end in
  let x := zt 1 [am a] (fun _ i => hd 0 i + 1) in
  match conv_call 0 Z.add Z.mul (layer_of t m [a] 1 2 1) ex_w None x with
  | Ok z => let y := zt 2 (tsh z) (fun c i => 10 * c + hd 0 i) in
      match convt_call 0 Z.add Z.mul (layer_of t m [a] 2 1 1) (transpose_weight ex_w) None y with
      | Ok x' => tsh x' = tsh x /\ dot 0 Z.add Z.mul z y = dot 0 Z.add Z.mul x x' /\ dot 0 Z.add Z.mul z y <> 0
      | Err _ => False
      end
  | Err _ => False
  end.
Proof. intros m [-> | ->]; vm_compute; repeat split; discriminate. Qed.

(** C60. The subclasses for 1, 2 and 3 dimensions build what the general class builds, except that
    [ConvTranspose3d] forgets [dtype]. *)
Theorem C60_subclasses_partial :
  conv1d_init = conv_init 1 /\ conv2d_init = conv_init 2 /\ conv3d_init = conv_init 3 /\
  convt1d_init = convt_init 1 /\ convt2d_init = convt_init 2 /\
  forall inc outc k s p a d g b m, convt3d_init inc outc k s p a d g b m None = convt_init 3 inc outc k s p a d g b m None.
Proof. repeat split. Qed.
Print Assumptions C60_subclasses_partial.
Theorem C60_dtype : forall n inc outc k s p a d g b m dt l,
  (conv_init n inc outc k s p d g b m (Some dt) = Ok l -> dtype l = dt) /\
  (convt_init n inc outc k s p a d g b m (Some dt) = Ok l -> dtype l = dt).
Proof.
  intros n inc outc k s p a d g b m dt l. split; intros H.
  - unfold conv_init in H. do 3 (apply bind_ok in H as (? & _ & H)). destruct (g =? 0); [discriminate|]. destruct (negb _); [discriminate|].
    do 3 (apply bind_ok in H as (? & _ & H)). injection H as <-. auto.
  - unfold convt_init in H. do 5 (apply bind_ok in H as (? & _ & H)). destruct (g =? 0); [discriminate|].
    apply bind_ok in H as (ww & _ & H). apply bind_ok in H as (pp & _ & H). apply bind_ok in H as (mm & _ & H). destruct mm; try discriminate; [injection H as <-; auto|].
    destruct (existsb _ _); [discriminate|]. destruct pp; try discriminate; injection H as <-; auto.
Qed.
Print Assumptions C60_dtype.
Theorem C60_dtype_refuted : exists inc outc k s p a d g b m dt l,
  convt3d_init inc outc k s p a d g b m (Some dt) = Ok l /\ dtype l <> dt.
Proof.
  exists 1, 1, (AnInt 3), (AnInt 1), (PadInt 0), (AnInt 0), (AnInt 1), 1, false, "zeros"%string, 16%nat. eexists. split; [vm_compute; reflexivity|]. cbn. discriminate.
Qed.
Print Assumptions C60_dtype_refuted.
(** [in_channels] must be divisible by [groups]: [Conv] checks it, [ConvTranspose] does not; its
    layer then refuses every input with that many channels. *)
Theorem C60_groups_conv : forall n inc outc k s p d g b m dt l, conv_init n inc outc k s p d g b m dt = Ok l -> inc mod g = 0.
Proof.
  intros n inc outc k s p d g b m dt l H. unfold conv_init in H. do 3 (apply bind_ok in H as (? & _ & H)). destruct (g =? 0); [discriminate|].
  destruct (Z.eqb_spec (inc mod g) 0); [auto|discriminate].
Qed.
Print Assumptions C60_groups_conv.
Theorem C60_groups_refuted : exists n inc outc k s p a d g b m dt l,
  convt_init n inc outc k s p a d g b m dt = Ok l /\ inc mod g <> 0 /\
  forall (R : Type) (rO : R) radd rmul w bi (x y : @tensor R), tch x = inc -> convt_call rO radd rmul l w bi x <> Ok y.
Proof.
  exists 1%nat, 3, 2, (AnInt 3), (AnInt 1), (PadInt 0), (AnInt 0), (AnInt 1), 2, false, "zeros"%string, None. eexists. split; [vm_compute; reflexivity|].
  split; [vm_compute; discriminate|]. intros R rO radd rmul w bi x y Hx H. unfold convt_call in H. destruct (negb _); [discriminate|].
  apply bind_ok in H as (ps & _ & H). cbn [pmode bind] in H. apply bind_ok in H as (x0 & Hx0 & _).
  apply conv_gd_inv in Hx0 as (HQ & _). rewrite Hx in HQ. vm_compute in HQ. discriminate.
Qed.
Print Assumptions C60_groups_refuted.
(** C60. Strings are read without regard to the case of the letters a to z; no other characters are identified. *)
Definition lower_letter (k : nat) : ascii := ascii_of_nat (97 + k).
Definition capital_letter (k : nat) : ascii := ascii_of_nat (65 + k).
Inductive spells : string -> string -> Prop :=
| sp_nil : spells EmptyString EmptyString
| sp_letter : forall k s t, (k < 26)%nat -> spells s t -> spells (String (lower_letter k) s) (String (capital_letter k) t)
| sp_other : forall a s t, (forall k, (k < 26)%nat -> a <> lower_letter k) -> spells s t -> spells (String a s) (String a t).
Lemma upper_ascii_iff : forall a, (exists k, (k < 26)%nat /\ a = lower_letter k /\ upper_ascii a = capital_letter k) \/
  ((forall k, (k < 26)%nat -> a <> lower_letter k) /\ upper_ascii a = a).
Proof.
  intros a. unfold upper_ascii. destruct (Nat.leb_spec 97 (nat_of_ascii a)); [destruct (Nat.leb_spec (nat_of_ascii a) 122)|]; cbn [andb].
  - left. exists (nat_of_ascii a - 97)%nat. unfold lower_letter, capital_letter. split; [lia|]. split; [|f_equal; lia].
    replace (97 + (nat_of_ascii a - 97))%nat with (nat_of_ascii a) by lia. symmetry. apply ascii_nat_embedding.
  - right. split; [|reflexivity]. intros k Hk ->. unfold lower_letter in *. rewrite nat_ascii_embedding in * by lia. lia.
  - right. split; [|reflexivity]. intros k Hk ->. unfold lower_letter in *. rewrite nat_ascii_embedding in * by lia. lia.
Qed.
Theorem C60_names : forall s t, upper s = t <-> spells s t.
Proof.
  split.
  - intros <-. induction s as [|a s IH]; cbn [upper]; [constructor|].
    destruct (upper_ascii_iff a) as [(k & Hk & E & ->)|[H ->]]; [rewrite E|]; constructor; auto.
  - induction 1 as [|k s t Hk _ IH|a s t Ha _ IH]; cbn [upper]; [reflexivity| |]; rewrite IH; f_equal.
    + destruct (upper_ascii_iff (lower_letter k)) as [(j & Hj & E & ->)|[H _]]; [|exfalso; exact (H k Hk eq_refl)].
      apply (f_equal nat_of_ascii) in E. unfold lower_letter in E. rewrite !nat_ascii_embedding in E by lia. unfold capital_letter. f_equal. lia.
    + destruct (upper_ascii_iff a) as [(j & Hj & E & _)|[_ ->]]; [|reflexivity]. exfalso. exact (Ha j Hj E).
Qed.
Print Assumptions C60_names.
(** What the constructors keep of their arguments, said without the library's helpers. *)
Definition per_axis (n : nat) (x : ints) (l : list Z) : Prop :=
  match x with AnInt z => List.length l = n /\ Forall (eq z) l | ASeq l' => l = l' /\ List.length l' = n end.
Inductive pad_means (n : nat) : pad_arg -> pads -> Prop :=
| pm_same : forall s, upper s = "SAME"%string -> pad_means n (PadStr s) PSame
| pm_lower : forall s, upper s = "SAME_LOWER"%string -> pad_means n (PadStr s) PSameLower
| pm_valid : forall s, upper s = "VALID"%string -> pad_means n (PadStr s) PValid
| pm_int : forall z l, List.length l = n -> Forall (eq (Some (z, z))) l -> pad_means n (PadInt z) (PPairs l)
| pm_pairs : forall l, List.length l = n -> pad_means n (PadSeq (map (fun q => ESeq [fst q; snd q]) l)) (PPairs (map Some l))
| pm_ints : forall l, List.length l = n -> pad_means n (PadSeq (map EInt l)) (PPairs (map (fun z => Some (z, z)) l)).
Definition mode_means (s : string) (m : mode) : Prop :=
  upper s = match m with Zeros => "ZEROS" | Reflect => "REFLECT" | Replicate => "REPLICATE" | Circular => "CIRCULAR" end%string.
Lemma repeat_unique : forall {A} (x : A) n l, List.length l = n -> Forall (eq x) l -> l = repeat x n.
Proof. intros A x n l <-. induction 1 as [|y l <- _ IH]; cbn; congruence. Qed.
Lemma per_axis_iff : forall n x l, ntuple n x = Ok l <-> per_axis n x l.
Proof.
  intros n [z|l'] l; cbn; split.
  - intros H. injection H as <-. split; [apply repeat_length|]. apply Forall_forall. intros y Hy. apply repeat_spec in Hy. congruence.
  - intros [H1 H2]. now rewrite (repeat_unique z n l H1 H2).
  - destruct (Nat.eqb_spec (List.length l') n); [|discriminate]. intros H. injection H as <-. auto.
  - intros [-> E]. now rewrite E, Nat.eqb_refl.
Qed.
Lemma upper_names : forall s (p : pads) n, padding_init (PadStr s) n = Ok p <-> pad_means n (PadStr s) p.
Proof.
  intros s p n. cbn. split.
  - destruct (String.eqb_spec (upper s) "SAME"); [intros H; injection H as <-; now constructor|].
    destruct (String.eqb_spec (upper s) "SAME_LOWER"); [intros H; injection H as <-; now constructor|].
    destruct (String.eqb_spec (upper s) "VALID"); [intros H; injection H as <-; now constructor|discriminate].
  - inversion 1 as [t E|t E|t E| | |]; subst; rewrite E; reflexivity.
Qed.
Lemma mode_iff : forall s m, padding_mode_init s = Ok m <-> mode_means s m.
Proof.
  intros s m. unfold padding_mode_init, mode_means. cbv zeta. split.
  - repeat (match goal with |- context [String.eqb ?a ?b] => destruct (String.eqb_spec a b) end;
            [intros H; injection H as <-; assumption|]). discriminate.
  - intros E. rewrite E. now destruct m.
Qed.
Definition whole (p : pads) : Prop := match p with PPairs l => Forall (fun o => o <> None) l | _ => True end.
Lemma means_whole : forall n p r, pad_means n p r -> whole r.
Proof.
  intros n p r H. destruct H as [| | |z l _ H|l _|l _]; cbn; auto.
  - eapply Forall_impl; [|exact H]. cbn. congruence.
  - apply Forall_forall. intros y Hy. apply in_map_iff in Hy as (q & <- & _). discriminate.
  - apply Forall_forall. intros y Hy. apply in_map_iff in Hy as (q & <- & _). discriminate.
Qed.
Lemma means_init : forall n p r, pad_means n p r -> padding_init p n = Ok r.
Proof.
  intros n p r H. destruct H as [s E|s E|s E|z l E H|l E|l E].
  - cbn. now rewrite E.
  - cbn. now rewrite E.
  - cbn. now rewrite E.
  - cbn. now rewrite (repeat_unique (Some (z, z)) n l E H).
  - cbn. rewrite map_length, E, Nat.eqb_refl. replace (forallb _ _) with true.
    + rewrite map_map. do 2 f_equal. apply map_ext. now intros [a b].
    + symmetry. apply forallb_forall. intros y Hy. apply in_map_iff in Hy as (q & <- & _). reflexivity.
  - cbn. rewrite map_length, E, Nat.eqb_refl. destruct l as [|z l]; [reflexivity|]. cbn [map forallb is_seq andb].
    rewrite map_map. reflexivity.
Qed.
Lemma init_means : forall n p r, padding_init p n = Ok r -> whole r -> pad_means n p r.
Proof.
  intros n [s|z|l] r H W.
  - now apply upper_names.
  - cbn in H. injection H as <-. constructor; [apply repeat_length|]. apply Forall_forall. intros y Hy. apply repeat_spec in Hy. congruence.
  - cbn in H. destruct (Nat.eqb_spec (List.length l) n) as [E|]; [|discriminate].
    destruct (forallb is_seq l) eqn:F; injection H as <-; cbn in W.
    + assert (exists qs, l = map (fun q => ESeq [fst q; snd q]) qs) as [qs ->].
      { clear E F. induction l as [|e l IH]; [now exists []|]. inversion W as [|? ? W1 W2]; subst. destruct (IH W2) as [qs ->].
        destruct e as [z|[|a [|b [|]]]]; cbn in W1; try congruence. now exists ((a, b) :: qs). }
      rewrite map_map in *. rewrite map_length in E.
      replace (map _ qs) with (map Some qs) by (apply map_ext; now intros [a b]). now constructor.
    + assert (exists qs, l = map EInt qs) as [qs ->].
      { clear E F. induction l as [|e l IH]; [now exists []|]. inversion W as [|? ? W1 W2]; subst. destruct (IH W2) as [qs ->].
        destruct e as [z|]; cbn in W1; try congruence. now exists (z :: qs). }
      rewrite map_map in *. rewrite map_length in E. now constructor.
Qed.

(** [Conv]'s constructor: exactly which arguments are accepted, and what is kept of them. *)
Theorem C60_conv_arguments : forall n inc outc k s p d g b m dt l, whole (padding l) ->
  (conv_init n inc outc k s p d g b m dt = Ok l <->
   nsd l = n /\ Conv_Model.inc l = inc /\ Conv_Model.outc l = outc /\ groups l = g /\ use_bias l = b /\
   per_axis n k (kernel l) /\ per_axis n s (stride l) /\ per_axis n d (dilation l) /\ per_axis n (AnInt 0) (opad l) /\
   pad_means n p (padding l) /\ mode_means m (pmode l) /\ dtype l = match dt with Some x => x | None => 32%nat end /\
   g <> 0 /\ (g | inc) /\ wshape l = outc :: inc / g :: kernel l /\ Forall (fun z => 0 <= z) (wshape l) /\
   0 < inc / g * fold_right Z.mul 1 (kernel l)).
Proof.
  intros n inc outc k s p d g b m dt l W. split; intros H.
  - unfold conv_init in H. apply bind_ok in H as (k' & Hk & H). apply bind_ok in H as (s' & Hs & H). apply bind_ok in H as (d' & Hd & H).
    destruct (Z.eqb_spec g 0) as [|Hg]; [discriminate|]. destruct (Z.eqb_spec (inc mod g) 0) as [Hm|]; [|discriminate]. cbn [negb] in H.
    apply bind_ok in H as (w & Hw & H). apply bind_ok in H as (p' & Hp & H). apply bind_ok in H as (m' & Hmo & H). injection H as <-. cbn in *.
    rewrite per_axis_iff in Hk, Hs, Hd. apply mode_iff in Hmo. apply init_means in Hp; [|exact W].
    unfold weight_shape in Hw. cbv zeta in Hw. destruct (Z.ltb_spec (inc / g * prod k') 0); [discriminate|]. destruct (Z.eqb_spec (inc / g * prod k') 0); [discriminate|].
    destruct (forallb _ _) eqn:F; [|discriminate]. injection Hw as <-.
    do 8 (split; [auto|]). split; [|do 4 (split; [auto|])].
    { split; [apply repeat_length|]. apply Forall_forall. intros y Hy. apply repeat_spec in Hy. congruence. }
    split; [now apply Z.mod_divide|]. split; [auto|]. split; [|unfold prod in *; lia].
    apply Forall_forall. intros z Hz. rewrite forallb_forall in F. specialize (F z Hz). now apply Z.leb_le in F.
  - destruct H as (H1 & H2 & H3 & H4 & H5 & Hk & Hs & Hd & Ha & Hp & Hm & Hdt & Hg & Hdiv & Hw & Hpos & Hprod).
    apply per_axis_iff in Hk, Hs, Hd. apply mode_iff in Hm. apply means_init in Hp. destruct Ha as [Ha1 Ha2].
    unfold conv_init. rewrite Hk, Hs, Hd. cbn [bind]. destruct (Z.eqb_spec g 0); [contradiction|].
    apply Z.mod_divide in Hdiv; [|auto]. rewrite Hdiv. cbn [negb Z.eqb]. unfold weight_shape. cbv zeta.
    change (prod (kernel l)) with (fold_right Z.mul 1 (kernel l)).
    destruct (Z.ltb_spec (inc / g * fold_right Z.mul 1 (kernel l)) 0); [lia|]. destruct (Z.eqb_spec (inc / g * fold_right Z.mul 1 (kernel l)) 0); [lia|].
    rewrite <- Hw. replace (forallb _ (wshape l)) with true.
    + cbn [bind]. rewrite Hp, Hm. cbn [bind]. rewrite <- (repeat_unique _ _ _ Ha1 Ha2). unfold default_dtype. rewrite <- Hdt, <- H1, <- H2, <- H3, <- H4, <- H5. now destruct l.
    + symmetry. apply forallb_forall. intros z Hz. rewrite Forall_forall in Hpos. apply Z.leb_le. auto.
Qed.
Print Assumptions C60_conv_arguments.
(** [ConvTranspose]'s constructor. The check on [output_padding] (see C39) compares whole tuples; divisibility by [groups] is not checked;
    padding modes other than zeros are restricted. *)
Fixpoint lex_lt (a b : list Z) : Prop :=
  match a, b with _, [] => False | [], _ :: _ => True | x :: a', y :: b' => x < y \/ x = y /\ lex_lt a' b' end.
Lemma lex_iff : forall a b, tuple_lt a b = true <-> lex_lt a b.
Proof.
  induction a as [|x a IH]; intros [|y b]; cbn; try (split; auto; discriminate).
  destruct (Z.eqb_spec x y) as [->|N].
  - rewrite IH. split; [auto|]. intros [?|[_ ?]]; [lia|auto].
  - rewrite Z.ltb_lt. split; [auto|]. intros [?|[? _]]; [auto|contradiction].
Qed.
Lemma opad_iff : forall n s a, List.length s = n -> List.length a = n -> (opad_check s a = Ok tt <-> n = 0%nat \/ lex_lt a s).
Proof.
  intros n s a Hs Ha. unfold opad_check, tuple_ge. rewrite <- lex_iff.
  destruct s as [|x s], a as [|y a]; cbn [List.length] in *; try (subst; discriminate).
  - cbn. split; [now left|auto].
  - cbn [List.combine existsb]. destruct (tuple_lt _ _) eqn:E; cbn [negb orb].
    + replace (existsb _ _) with false; [split; auto|]. clear. induction (List.combine s a) as [|q l IH]; cbn; auto.
    + split; [discriminate|]. intros [?|?]; [subst; discriminate|congruence].
Qed.
Theorem C60_convt_arguments : forall n inc outc k s p a d g b m dt l, whole (padding l) ->
  (convt_init n inc outc k s p a d g b m dt = Ok l <->
   nsd l = n /\ Conv_Model.inc l = inc /\ Conv_Model.outc l = outc /\ groups l = g /\ use_bias l = b /\
   per_axis n k (kernel l) /\ per_axis n s (stride l) /\ per_axis n d (dilation l) /\ per_axis n a (opad l) /\
   (n = 0%nat \/ lex_lt (opad l) (stride l)) /\
   pad_means n p (padding l) /\ mode_means m (pmode l) /\ dtype l = match dt with Some x => x | None => 32%nat end /\
   g <> 0 /\ wshape l = outc :: inc / g :: kernel l /\ Forall (fun z => 0 <= z) (wshape l) /\
   0 < inc / g * fold_right Z.mul 1 (kernel l) /\
   (pmode l = Zeros \/ pmode l = Circular /\ Forall (eq 0) (opad l) /\ (padding l = PSame \/ padding l = PSameLower))).
Proof.
  intros n inc outc k s p a d g b m dt l W. split; intros H.
  - unfold convt_init in H. apply bind_ok in H as (k' & Hk & H). apply bind_ok in H as (s' & Hs & H). apply bind_ok in H as (a' & Ha & H). apply bind_ok in H as (d' & Hd & H).
    apply bind_ok in H as ([] & Ho & H).
    destruct (Z.eqb_spec g 0) as [|Hg]; [discriminate|].
    apply bind_ok in H as (w & Hw & H). apply bind_ok in H as (p' & Hp & H). apply bind_ok in H as (m' & Hmo & H).
    rewrite per_axis_iff in Hk, Hs, Hd, Ha. apply mode_iff in Hmo.
    unfold weight_shape in Hw. cbv zeta in Hw. destruct (Z.ltb_spec (inc / g * prod k') 0); [discriminate|]. destruct (Z.eqb_spec (inc / g * prod k') 0); [discriminate|].
    destruct (forallb _ _) eqn:F; [|discriminate]. injection Hw as <-.
    assert (Hlen : forall x l, per_axis n x l -> List.length l = n) by (intros [?|?] ?; cbn; [tauto|intros [-> ?]; auto]).
    apply (opad_iff n) in Ho; [|now apply Hlen in Hs|now apply Hlen in Ha].
    assert (Hl : l = {| nsd := n; Conv_Model.inc := inc; Conv_Model.outc := outc; kernel := k'; stride := s'; opad := a'; dilation := d';
              padding := p'; groups := g; use_bias := b; pmode := m'; wshape := outc :: inc / g :: k';
              dtype := match dt with Some x => x | None => default_dtype end |} /\
              (m' = Zeros \/ m' = Circular /\ Forall (eq 0) a' /\ (p' = PSame \/ p' = PSameLower))).
    { destruct m'; try discriminate; cbv zeta in H.
      - injection H as <-. auto.
      - destruct (existsb _ a') eqn:E; [discriminate|].
        assert (Forall (eq 0) a').
        { apply Forall_forall. intros z Hz. destruct (Z.eqb_spec z 0); [auto|]. exfalso. assert (existsb (fun o => negb (o =? 0)) a' = true); [|congruence].
          apply existsb_exists. exists z. split; [auto|]. destruct (Z.eqb_spec z 0); [contradiction|reflexivity]. }
        destruct p'; try discriminate; injection H as <-; auto 7. }
    destruct Hl as [-> Hmode]. cbn in W |- *. apply init_means in Hp; [|exact W].
    do 14 (split; [auto|]). split; [auto|]. split; [|split; [unfold prod in *; lia|auto]].
    apply Forall_forall. intros z Hz. rewrite forallb_forall in F. specialize (F z Hz). now apply Z.leb_le in F.
  - destruct H as (H1 & H2 & H3 & H4 & H5 & Hk & Hs & Hd & Ha & Ho & Hp & Hm & Hdt & Hg & Hw & Hpos & Hprod & Hmode).
    assert (Hlen : forall x l, per_axis n x l -> List.length l = n) by (intros [?|?] ?; cbn; [tauto|intros [-> ?]; auto]).
    apply (opad_iff n) in Ho; [|now apply Hlen in Hs|now apply Hlen in Ha].
    apply per_axis_iff in Hk, Hs, Hd, Ha. apply mode_iff in Hm. apply means_init in Hp.
    unfold convt_init. rewrite Hk, Hs, Hd, Ha. cbn [bind]. rewrite Ho. cbn [bind]. destruct (Z.eqb_spec g 0); [contradiction|].
    unfold weight_shape. cbv zeta.
    change (prod (kernel l)) with (fold_right Z.mul 1 (kernel l)).
    destruct (Z.ltb_spec (inc / g * fold_right Z.mul 1 (kernel l)) 0); [lia|]. destruct (Z.eqb_spec (inc / g * fold_right Z.mul 1 (kernel l)) 0); [lia|].
    rewrite <- Hw. replace (forallb _ (wshape l)) with true.
    + cbn [bind]. rewrite Hp, Hm. cbn [bind]. unfold default_dtype. rewrite <- Hdt, <- H1, <- H2, <- H3, <- H4, <- H5.
      destruct Hmode as [E|(E & E0 & E1)]; rewrite E.
      * destruct l; cbn in *; subst; reflexivity.
      * replace (existsb _ (opad l)) with false.
        -- destruct l; cbn in *; subst. destruct E1 as [-> | ->]; reflexivity.
        -- symmetry. clear - E0. induction E0 as [|z r <- _ IH]; cbn; auto.
    + symmetry. apply forallb_forall. intros z Hz. rewrite Forall_forall in Hpos. apply Z.leb_le. auto.
Qed.
Print Assumptions C60_convt_arguments.
(** A padding that is not one of the documented forms is kept, but then every call is refused. *)
Theorem C60_bad_padding : forall (R : Type) (rO : R) radd rmul l w bi (x y : @tensor R), ~ whole (padding l) ->
  conv_call rO radd rmul l w bi x <> Ok y /\ convt_call rO radd rmul l w bi x <> Ok y.
Proof.
  intros R rO radd rmul l w bi x y N. destruct (padding l) as [| | |ps] eqn:E; try (exfalso; apply N; exact I).
  assert (A : all_some ps = None).
  { clear E. induction ps as [|[q|] ps IH]; [exfalso; apply N; constructor| |reflexivity]. cbn. rewrite IH; [reflexivity|].
    intros W. apply N. constructor; [discriminate|exact W]. }
  split; intros H.
  - unfold conv_call in H. destruct (negb _); [discriminate|]. unfold conv_pads in H. rewrite E, A in H. discriminate.
  - unfold convt_call in H. destruct (negb _); [discriminate|]. unfold padding_transpose in H. rewrite E, A in H. discriminate.
Qed.
Print Assumptions C60_bad_padding.
Example C60_ex : (exists l, conv2d_init 4 6 (ASeq [3; 5]) (AnInt 2) (PadStr "same") (AnInt 1) 2 true "Circular" (Some 64%nat) = Ok l /\ wshape l = [6; 2; 3; 5]) /\
  conv2d_init 5 6 (AnInt 3) (AnInt 2) (PadInt 0) (AnInt 1) 2 true "zeros" None = Err ValueError /\
  conv2d_init 4 6 (ASeq [3]) (AnInt 2) (PadInt 0) (AnInt 1) 2 true "zeros" None = Err ValueError.
Proof. split; [eexists; split; vm_compute; reflexivity|]. split; reflexivity. Qed.
