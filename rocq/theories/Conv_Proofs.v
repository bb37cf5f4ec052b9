(** Lemmas about the convolution model. *)
From Verif Require Export Conv_Model.
From Coq Require Import Permutation Ring_theory Ring.

(** One axis: size of the input of [Conv], kernel, stride, dilation, output padding, paddings. *)
Record axis := { am : Z; ak : Z; as_ : Z; ad : Z; ao : Z; ap0 : Z; ap1 : Z }.
Definition ok_axis (a : axis) : Prop := 0 <= am a /\ 1 <= ak a /\ 1 <= as_ a /\ 1 <= ad a.
Inductive kind := KSame | KSameLower | KValid | KExplicit.
Definition pads_of (t : kind) (axes : list axis) : pads :=
  match t with
  | KSame => PSame | KSameLower => PSameLower | KValid => PValid
  | KExplicit => PPairs (map (fun a => Some (ap0 a, ap1 a)) axes)
  end.
Definition layer_of (t : kind) (m : mode) (axes : list axis) (ci co g : Z) : layer :=
  {| nsd := List.length axes; inc := ci; outc := co; kernel := map ak axes; stride := map as_ axes;
     opad := map ao axes; dilation := map ad axes; padding := pads_of t axes; groups := g; use_bias := false;
     pmode := m; wshape := co :: ci / g :: map ak axes; dtype := default_dtype |}.

(** ** Sizes on one axis *)
Definition win_size (a : axis) : Z := ad a * (ak a - 1) + 1.
(** The paddings used by [Conv] and by [ConvTranspose]. *)
Definition cpad (t : kind) (a : axis) : Z * Z :=
  match t with
  | KSame => same_pads false (am a) (win_size a) (as_ a)
  | KSameLower => same_pads true (am a) (win_size a) (as_ a)
  | KValid => (0, 0)
  | KExplicit => (ap0 a, ap1 a)
  end.
Definition tpad (t : kind) (a : axis) : Z * Z :=
  match t with
  | KSame => same_t false (ak a) (as_ a) (ao a) (ad a)
  | KSameLower => same_t true (ak a) (as_ a) (ao a) (ad a)
  | KValid => explicit_t (0, 0) (ak a) (ao a) (ad a)
  | KExplicit => explicit_t (ap0 a, ap1 a) (ak a) (ao a) (ad a)
  end.
Definition csize (t : kind) (a : axis) : Z := out_size (am a) (fst (cpad t a)) (snd (cpad t a)) (ak a) (as_ a) 1 (ad a).
Definition tsize (t : kind) (a : axis) (n : Z) : Z := out_size n (fst (tpad t a)) (snd (tpad t a)) (ak a) 1 (as_ a) (ad a).

Lemma dil_win a : 1 <= ak a -> dil (ak a) (ad a) = win_size a.
Proof. intros. unfold dil, win_size. destruct (Z.eqb_spec (ak a) 0); lia. Qed.
Lemma dil1 n : 0 <= n -> dil n 1 = n.
Proof. intros. unfold dil. destruct (Z.eqb_spec n 0); lia. Qed.

Lemma conv_pads_of t m axes ci co g : Forall ok_axis axes ->
  conv_pads (layer_of t m axes ci co g) (map am axes) = Ok (map (cpad t) axes).
Proof.
  intros H. unfold conv_pads. cbn [padding layer_of kernel dilation stride].
  destruct t; cbn [pads_of].
  - f_equal. induction H as [|a axes [H1 [H2 H3]] H IH]; cbn [map zip zip3]; auto. rewrite IH, dil_win by auto. auto.
  - f_equal. induction H as [|a axes [H1 [H2 H3]] H IH]; cbn [map zip zip3]; auto. rewrite IH, dil_win by auto. auto.
  - f_equal. rewrite map_map. auto.
  - assert (E : all_some (map (fun a => Some (ap0 a, ap1 a)) axes) = Some (map (fun a => (ap0 a, ap1 a)) axes)).
    { clear. induction axes as [|a axes IH]; cbn [map all_some]; auto. rewrite IH. auto. }
    rewrite E. auto.
Qed.
Lemma padding_transpose_of t m axes ci co g :
  padding_transpose (layer_of t m axes ci co g) = Ok (map (tpad t) axes).
Proof.
  unfold padding_transpose. cbn [padding layer_of kernel dilation stride opad nsd].
  destruct t; cbn [pads_of].
  - f_equal. induction axes as [|a axes IH]; cbn [map zip4]; auto. rewrite IH. auto.
  - f_equal. induction axes as [|a axes IH]; cbn [map zip4]; auto. rewrite IH. auto.
  - f_equal. induction axes as [|a axes IH]; cbn [List.length repeat map zip_t]; auto. rewrite IH. auto.
  - assert (E : all_some (map (fun a => Some (ap0 a, ap1 a)) axes) = Some (map (fun a => (ap0 a, ap1 a)) axes)).
    { clear. induction axes as [|a axes IH]; cbn [map all_some]; auto. rewrite IH. auto. }
    rewrite E. f_equal. clear E. induction axes as [|a axes IH]; cbn [map zip_t]; auto. rewrite IH. auto.
Qed.

Lemma tsize_explicit a n : 1 <= n -> ok_axis a ->
  tsize KExplicit a n = Z.max 0 ((n - 1) * as_ a + ad a * (ak a - 1) + 1 - ap0 a - ap1 a + ao a).
Proof.
  intros Hn (H1 & H2 & H3 & H4). unfold tsize, tpad, explicit_t, out_size. cbn [fst snd]. rewrite dil_win by auto.
  unfold dil, win_size. destruct (Z.eqb_spec n 0); [lia|]. rewrite Z.div_1_r. f_equal. lia.
Qed.
Lemma tsize_valid a n : 1 <= n -> ok_axis a ->
  tsize KValid a n = Z.max 0 ((n - 1) * as_ a + ad a * (ak a - 1) + 1 + ao a).
Proof.
  intros Hn (H1 & H2 & H3 & H4). unfold tsize, tpad, explicit_t, out_size. cbn [fst snd]. rewrite dil_win by auto.
  unfold dil, win_size. destruct (Z.eqb_spec n 0); [lia|]. rewrite Z.div_1_r. f_equal. lia.
Qed.
Definition is_same (t : kind) : bool := match t with KSame | KSameLower => true | _ => false end.
Lemma tpad_sum t a : is_same t = true -> fst (tpad t a) + snd (tpad t a) = ad a * (ak a - 1) + as_ a - ao a - 1.
Proof. destruct t; try discriminate; intros _; unfold tpad, same_t; cbn [fst snd]; destruct (Z.ltb_spec (ad a * (ak a - 1) - as_ a + ao a + 1) 0); lia. Qed.
Lemma tsize_same t a n : is_same t = true -> 1 <= n -> ok_axis a -> tsize t a n = Z.max 0 (n * as_ a - ao a).
Proof.
  intros Ht Hn (H1 & H2 & H3 & H4). unfold tsize, out_size. rewrite dil_win by auto. pose proof (tpad_sum t a Ht) as HS.
  unfold dil, win_size. destruct (Z.eqb_spec n 0); [lia|]. rewrite Z.div_1_r. f_equal. lia.
Qed.

Lemma ceil_bounds n s : 1 <= s -> (- ((- n) / s) - 1) * s < n <= - ((- n) / s) * s.
Proof. intros. pose proof (Z.div_mod (- n) s ltac:(lia)). pose proof (Z.mod_pos_bound (- n) s ltac:(lia)). nia. Qed.
Lemma cpad_sum t a : is_same t = true -> fst (cpad t a) + snd (cpad t a) = Z.max ((- ((- am a) / as_ a) - 1) * as_ a + win_size a - am a) 0.
Proof. destruct t; try discriminate; intros _; unfold cpad, same_pads; cbn [fst snd]; lia. Qed.
Lemma csize_same t a : is_same t = true -> ok_axis a -> 1 <= am a -> csize t a = - ((- am a) / as_ a).
Proof.
  intros Ht (H1 & H2 & H3 & H4) Hm. unfold csize, out_size. rewrite dil_win, dil1 by auto. pose proof (cpad_sum t a Ht) as HS.
  pose proof (ceil_bounds (am a) (as_ a) H3) as HB. set (n := - ((- am a) / as_ a)) in *.
  assert (Hn : 1 <= n) by nia.
  rewrite <- Z.add_assoc, HS. assert (HW : 1 <= win_size a) by (unfold win_size; nia).
  assert (E : (am a + Z.max ((n - 1) * as_ a + win_size a - am a) 0 - win_size a) / as_ a = n - 1).
  { symmetry. apply Z.div_unique_pos with (r := am a + Z.max ((n - 1) * as_ a + win_size a - am a) 0 - win_size a - (n - 1) * as_ a); nia. }
  rewrite E. lia.
Qed.

(** The paddings agree when the sizes do. *)
Lemma tpad_cpad t a : ok_axis a -> 1 <= am a -> 1 <= csize t a -> tsize t a (csize t a) = am a ->
  fst (tpad t a) = ad a * (ak a - 1) - fst (cpad t a).
Proof.
  intros Ha Hm Hn HT. destruct t; try reflexivity.
  - rewrite tsize_same in HT by auto. rewrite (csize_same KSame) in HT, Hn by auto. unfold tpad, cpad, same_t, same_pads. cbn [fst].
    set (n := - ((- am a) / as_ a)) in *. destruct Ha as (_ & Hk & Hs & Hd). unfold win_size.
    destruct (Z.ltb_spec (ad a * (ak a - 1) - as_ a + ao a + 1) 0) as [Hlt|Hge].
    + rewrite Z.max_r by lia. rewrite Z.add_0_r. auto.
    + rewrite Z.max_l by lia. rewrite Z.add_0_r. do 2 f_equal. lia.
  - rewrite tsize_same in HT by auto. rewrite (csize_same KSameLower) in HT, Hn by auto. unfold tpad, cpad, same_t, same_pads. cbn [fst].
    set (n := - ((- am a) / as_ a)) in *. destruct Ha as (_ & Hk & Hs & Hd). unfold win_size.
    assert (HH : forall q, q - q / 2 = (q + 1) / 2).
    { intros q. pose proof (Z.div_mod q 2 ltac:(lia)). pose proof (Z.mod_pos_bound q 2 ltac:(lia)).
      apply Z.div_unique_pos with (r := 1 - q mod 2); lia. }
    destruct (Z.ltb_spec (ad a * (ak a - 1) - as_ a + ao a + 1) 0) as [Hlt|Hge].
    + rewrite Z.max_r by lia. rewrite HH. auto.
    + rewrite Z.max_l by lia. rewrite HH. do 3 f_equal. lia.
Qed.

Lemma out_sizes_conv t axes :
  out_sizes (map am axes) (map (cpad t) axes) (map ak axes) (map as_ axes) (repeat 1 (List.length axes)) (map ad axes) = map (csize t) axes.
Proof. induction axes as [|a axes IH]; cbn [map out_sizes List.length repeat]; auto. rewrite IH. auto. Qed.
Lemma out_sizes_convt t axes (f : axis -> Z) :
  out_sizes (map f axes) (map (tpad t) axes) (map ak axes) (repeat 1 (List.length axes)) (map as_ axes) (map ad axes)
  = map (fun a => tsize t a (f a)) axes.
Proof. induction axes as [|a axes IH]; cbn [map out_sizes List.length repeat]; auto. rewrite IH. auto. Qed.

(** ** Index sets *)
Lemma zrange_in n i : In i (zrange n) <-> 0 <= i < n.
Proof.
  unfold zrange. rewrite in_map_iff. split.
  - intros (k & <- & Hk). apply in_seq in Hk. lia.
  - intros H. exists (Z.to_nat i). split; [lia|]. apply in_seq. lia.
Qed.
Lemma zrange_nodup n : NoDup (zrange n).
Proof.
  unfold zrange. generalize (seq_NoDup (Z.to_nat n) 0). generalize (seq 0 (Z.to_nat n)). intros l H. induction H as [|x l Hx H IH]; cbn; constructor; auto.
  intros Hin. apply in_map_iff in Hin as (y & E & Hy). apply Nat2Z.inj in E. subst. auto.
Qed.
Lemma box_in ns : forall i, In i (box ns) <-> in_box ns i = true.
Proof.
  induction ns as [|n ns IH]; intros i; cbn [box in_box].
  - destruct i; cbn; intuition congruence.
  - rewrite in_flat_map. destruct i as [|x i].
    + split; [|discriminate]. intros (k & _ & Hi). apply in_map_iff in Hi as (v & E & _). discriminate.
    + split.
      * intros (k & Hk & Hi). apply in_map_iff in Hi as (v & E & Hv). injection E as -> ->. apply zrange_in in Hk. apply IH in Hv. rewrite Hv. lia.
      * intros H. apply andb_true_iff in H as [H Hv]. exists x. split; [apply zrange_in; lia|]. apply in_map. apply IH. auto.
Qed.
Lemma nodup_flat_map {A B} (f : A -> list B) l : NoDup l -> (forall a, In a l -> NoDup (f a)) ->
  (forall a b x, In x (f a) -> In x (f b) -> a = b) -> NoDup (flat_map f l).
Proof.
  intros HN Hf Hd. induction HN as [|a l Ha HN IH]; cbn; [constructor|].
  assert (H1 : NoDup (f a)) by (apply Hf; left; auto). assert (H2 : NoDup (flat_map f l)) by (apply IH; intros; apply Hf; right; auto).
  assert (H3 : forall x, In x (f a) -> ~ In x (flat_map f l)).
  { intros x Hx Hx'. apply in_flat_map in Hx' as (b & Hb & Hx'). rewrite (Hd a b x Hx Hx') in Ha. auto. }
  induction H1 as [|x xs Hx H1 IH1]; cbn; auto. constructor.
  - rewrite in_app_iff. intros [H|H]; auto. apply (H3 x); [left|]; auto.
  - apply IH1. intros y Hy. apply H3. right. auto.
Qed.
Lemma nodup_map_in {A B} (f : A -> B) l : NoDup l -> (forall a b, In a l -> In b l -> f a = f b -> a = b) -> NoDup (map f l).
Proof.
  intros HN Hi. induction HN as [|a l Ha HN IH]; cbn; constructor.
  - intros H. apply in_map_iff in H as (b & E & Hb). rewrite (Hi b a) in Hb; auto; [right; auto|left; auto].
  - apply IH. intros; apply Hi; auto; right; auto.
Qed.
Lemma box_nodup ns : NoDup (box ns).
Proof.
  induction ns as [|n ns IH]; cbn [box]; [repeat constructor; auto|].
  apply nodup_flat_map; [apply zrange_nodup| |].
  - intros a _. apply nodup_map_in; auto. intros; congruence.
  - intros a b x Ha Hb. apply in_map_iff in Ha as (u & <- & _). apply in_map_iff in Hb as (v & E & _). congruence.
Qed.
Lemma box_len ns i : In i (box ns) -> List.length i = List.length ns.
Proof.
  rewrite box_in. revert i. induction ns as [|n ns IH]; intros [|x i] H; cbn in *; try discriminate; auto.
  apply andb_true_iff in H as [_ H]. f_equal. auto.
Qed.
Lemma flip_box ks : Permutation (map (flip_index ks) (box ks)) (box ks).
Proof.
  assert (Hf : forall j, In j (box ks) -> In (flip_index ks j) (box ks) /\ flip_index ks (flip_index ks j) = j).
  { intros j. rewrite !box_in. revert j. induction ks as [|k ks IH]; intros [|x j] H; cbn [in_box flip_index zip] in *; try discriminate; auto.
    apply andb_true_iff in H as [H Hj]. destruct (IH j Hj) as [H1 H2]. unfold flip_index in *. rewrite H1, H2. split; [lia|f_equal; lia]. }
  apply NoDup_Permutation; [|apply box_nodup|].
  - apply nodup_map_in; [apply box_nodup|]. intros a b Ha Hb E. rewrite <- (proj2 (Hf a Ha)), <- (proj2 (Hf b Hb)). congruence.
  - intros j. rewrite in_map_iff. split.
    + intros (i & <- & Hi). apply Hf. auto.
    + intros Hj. exists (flip_index ks j). split; apply Hf; auto.
Qed.

(** ** Sums *)
Section Ring.
  Context {R : Type} (rO rI : R) (radd rmul : R -> R -> R).
  Hypothesis Rth : semi_ring_theory rO rI radd rmul eq.
  Add Ring Rring : Rth.
  Notation sum := (sum rO radd).
  Infix "[+]" := radd (at level 50, left associativity).
  Infix "[*]" := rmul (at level 40, left associativity).

  Lemma sum_cons {A} a (l : list A) f : sum (a :: l) f = f a [+] sum l f.
  Proof. reflexivity. Qed.
  Lemma sum_nil {A} f : sum (@nil A) f = rO.
  Proof. reflexivity. Qed.
  Lemma sum_ext {A} (l : list A) f g : (forall a, In a l -> f a = g a) -> sum l f = sum l g.
  Proof. induction l as [|a l IH]; intros H; auto. rewrite !sum_cons, H, IH; auto; [|left; auto]. intros; apply H; right; auto. Qed.
  Lemma sum_zero {A} (l : list A) f : (forall a, In a l -> f a = rO) -> sum l f = rO.
  Proof. induction l as [|a l IH]; intros H; auto. rewrite sum_cons, H, IH; auto; [ring| |left; auto]. intros; apply H; right; auto. Qed.
  Lemma sum_mul_l {A} (l : list A) f c : c [*] sum l f = sum l (fun a => c [*] f a).
  Proof. induction l as [|a l IH]; [rewrite !sum_nil; ring|]. rewrite !sum_cons, <- IH. ring. Qed.
  Lemma sum_mul_r {A} (l : list A) f c : sum l f [*] c = sum l (fun a => f a [*] c).
  Proof. induction l as [|a l IH]; [rewrite !sum_nil; ring|]. rewrite !sum_cons, <- IH. ring. Qed.
  Lemma sum_add {A} (l : list A) f g : sum l (fun a => f a [+] g a) = sum l f [+] sum l g.
  Proof. induction l as [|a l IH]; [rewrite !sum_nil; ring|]. rewrite !sum_cons, IH. ring. Qed.
  Lemma sum_swap {A B} (l : list A) (m : list B) f : sum l (fun a => sum m (fun b => f a b)) = sum m (fun b => sum l (fun a => f a b)).
  Proof. induction l as [|a l IH]; [symmetry; apply sum_zero; auto|]. rewrite sum_cons, IH, <- sum_add. auto. Qed.
  Lemma sum_perm {A} (l m : list A) f : Permutation l m -> sum l f = sum m f.
  Proof. intros H. induction H; auto; [rewrite !sum_cons, IHPermutation; auto|rewrite !sum_cons; ring|congruence]. Qed.
  Lemma sum_map {A B} (g : A -> B) l f : sum (map g l) f = sum l (fun a => f (g a)).
  Proof. induction l as [|a l IH]; auto. cbn [map]. rewrite !sum_cons. congruence. Qed.
  Lemma sum_flip ks f : sum (box ks) (fun j => f (flip_index ks j)) = sum (box ks) f.
  Proof. rewrite <- (sum_map (flip_index ks)). apply sum_perm, flip_box. Qed.
  (** A sum with at most one term. *)
  Lemma sum_sel {A} (l : list A) (r : A -> bool) (f : A -> R) (b : bool) (v : A) : NoDup l ->
    (b = true -> In v l) -> (forall a, In a l -> (r a = true <-> b = true /\ a = v)) ->
    sum l (fun a => if r a then f a else rO) = if b then f v else rO.
  Proof.
    intros HN Hv Hr. destruct b.
    - specialize (Hv eq_refl). induction HN as [|a l Ha HN IH]; [destruct Hv|]. rewrite sum_cons. destruct Hv as [->|Hv].
      + assert (E : r v = true) by (apply Hr; [left|]; auto). rewrite E, sum_zero; [ring|]. intros a' Ha'. destruct (r a') eqn:E'; auto.
        apply Hr in E' as [_ ->]; [contradiction|right; auto].
      + destruct (r a) eqn:E; [apply Hr in E as [_ ->]; [contradiction|left; auto]|]. rewrite IH; auto; [ring|]. intros; apply Hr; right; auto.
    - apply sum_zero. intros a Ha. destruct (r a) eqn:E; auto. apply Hr in E as [? _]; auto. discriminate.
  Qed.

  Definition dot (x y : @tensor R) : R :=
    sum (zrange (tch x)) (fun c => sum (box (tsh x)) (fun i => tval x c i [*] tval y c i)).

  (** Two linear maps with the same coefficients are adjoint. *)
  Lemma adjoint_sums (Oc Ic : list Z) (O I K : list (list Z)) (w : Z -> Z -> list Z -> R) (x y : Z -> list Z -> R)
      (rel : list Z -> list Z -> list Z -> bool) :
    sum Oc (fun oc => sum O (fun o =>
      sum Ic (fun ic => sum K (fun j => w oc ic j [*] sum I (fun i => if rel o j i then x ic i else rO))) [*] y oc o)) =
    sum Ic (fun ic => sum I (fun i =>
      x ic i [*] sum Oc (fun oc => sum K (fun j => w oc ic j [*] sum O (fun o => if rel o j i then y oc o else rO))))).
  Proof.
    transitivity (sum Oc (fun oc => sum Ic (fun ic => sum O (fun o => sum I (fun i => sum K (fun j =>
      if rel o j i then w oc ic j [*] x ic i [*] y oc o else rO)))))).
    - apply sum_ext. intros oc _. rewrite sum_swap. apply sum_ext. intros o _. rewrite sum_mul_r. apply sum_ext. intros ic _.
      rewrite sum_mul_r. rewrite sum_swap. apply sum_ext. intros j _. rewrite sum_mul_l, sum_mul_r. apply sum_ext. intros i _.
      destruct (rel o j i); ring.
    - rewrite sum_swap. apply sum_ext. intros ic _. symmetry.
      transitivity (sum Oc (fun oc => sum I (fun i => sum K (fun j => sum O (fun o => if rel o j i then w oc ic j [*] x ic i [*] y oc o else rO))))).
      + rewrite sum_swap. apply sum_ext. intros i _. rewrite sum_mul_l. apply sum_ext. intros oc _. rewrite sum_mul_l. apply sum_ext. intros j _.
        rewrite !sum_mul_l. apply sum_ext. intros o _. destruct (rel o j i); ring.
      + apply sum_ext. intros oc _. rewrite sum_swap. rewrite (sum_swap O). symmetry.
        transitivity (sum I (fun i => sum K (fun j => sum O (fun o => if rel o j i then w oc ic j [*] x ic i [*] y oc o else rO)))).
        * apply sum_ext. intros i _. apply sum_swap.
        * rewrite sum_swap. auto.
  Qed.
End Ring.
