(** [ConvTranspose] with the recipe's weights is the adjoint of [Conv]. *)
From Verif Require Export Conv_Proofs.
From Coq Require Import Permutation Ring_theory Ring.

Definition veq (u v : list Z) : bool := if list_eq_dec Z.eq_dec u v then true else false.
Lemma veq_spec u v : veq u v = true <-> u = v.
Proof. unfold veq. destruct (list_eq_dec Z.eq_dec u v); split; congruence. Qed.
Lemma veq_cons x u y v : veq (x :: u) (y :: v) = ((x =? y) && veq u v)%bool.
Proof.
  apply eq_true_iff_eq. rewrite andb_true_iff, Z.eqb_eq, !veq_spec. split; [intros E; injection E; auto|intros [-> ->]; auto].
Qed.
Lemma flip_flip ks j : In j (box ks) -> flip_index ks (flip_index ks j) = j /\ In (flip_index ks j) (box ks).
Proof.
  rewrite !box_in. revert j. induction ks as [|k ks IH]; intros [|x j] H; cbn [in_box flip_index zip] in *; try discriminate; auto.
  apply andb_true_iff in H as [H Hj]. destruct (IH j Hj) as [H1 H2]. unfold flip_index in *. rewrite H1, H2. split; [f_equal; lia|lia].
Qed.
Lemma repeat_map {A} (axes : list A) (c : Z) : repeat c (List.length axes) = map (fun _ => c) axes.
Proof. induction axes; cbn; congruence. Qed.
Lemma repeat_map' {A B} (axes : list A) (c : B) : repeat c (List.length axes) = map (fun _ => c) axes.
Proof. induction axes; cbn; congruence. Qed.

Section Axes.
  Variable axes : list axis.
  Lemma mul_div (g : axis -> Z) : Forall (fun a => 1 <= g a) axes -> forall o t, List.length o = List.length axes -> List.length t = List.length axes ->
    (zip Z.mul o (map g axes) = t <-> forallb (fun x => x =? 0) (zip Z.modulo t (map g axes)) = true /\ o = zip Z.div t (map g axes)).
  Proof.
    intros H. induction H as [|a l Ha H IH]; intros [|x o] [|y t] Ho Ht; cbn [List.length] in *; try lia.
    - cbn. tauto.
    - cbn [map zip forallb]. injection Ho as Ho. injection Ht as Ht. specialize (IH o t Ho Ht). rewrite andb_true_iff, Z.eqb_eq.
      pose proof (Z.div_mod y (g a) ltac:(lia)) as HD. split.
      + intros E. injection E as Ex Et. apply IH in Et as [E1 E2]. rewrite <- Ex, Z_mod_mult. split; [auto|]. rewrite Z_div_mult by lia. f_equal. auto.
      + intros [[E1 E2] E]. injection E as Ex Eo. f_equal; [rewrite Ex; lia|]. apply IH. auto.
  Qed.
  Lemma pos_len o s j d p : List.length o = List.length axes -> List.length s = List.length axes -> List.length j = List.length axes ->
    List.length d = List.length axes -> List.length p = List.length axes -> List.length (pos o s j d p) = List.length axes.
  Proof.
    generalize (List.length axes) as n. intros n. revert o s j d p.
    induction n as [|n IH]; intros [|? ?] [|? ?] [|? ?] [|? ?] [|? ?]; cbn [List.length pos]; intros; try lia. rewrite IH; lia.
  Qed.
End Axes.

Section Ring.
  Context {R : Type} (rO rI : R) (radd rmul : R -> R -> R).
  Hypothesis Rth : semi_ring_theory rO rI radd rmul eq.
  Add Ring Rring2 : Rth.
  Notation sum := (sum rO radd).
  Infix "[*]" := rmul (at level 40, left associativity).

  Lemma ext_sum axes (f g : axis -> Z) F t : Forall (fun a => 1 <= g a) axes -> List.length t = List.length axes ->
    ext rO (map f axes) (map g axes) F t =
    sum (box (map f axes)) (fun o => if veq (zip Z.mul o (map g axes)) t then F o else rO).
  Proof.
    intros Hg Ht. unfold ext. symmetry. apply (sum_sel rO rI radd rmul Rth).
    - apply box_nodup.
    - intros H. apply andb_true_iff in H as [_ H]. apply box_in. auto.
    - intros o Ho. rewrite veq_spec. rewrite (mul_div axes g Hg) by (auto; rewrite (box_len _ _ Ho), map_length; auto).
      rewrite andb_true_iff. split; [|tauto]. intros [H ->]. rewrite box_in in Ho. auto.
  Qed.

  Lemma oc_index oc n m k : 0 <= oc < n -> oc / (n / 1) * m + k = k.
  Proof. intros H. rewrite Z.div_1_r, Z.div_small by lia. lia. Qed.

  Lemma box_axes (f : axis -> Z) axes i : In i (box (map f axes)) -> Forall (fun a => 1 <= f a) axes.
  Proof.
    rewrite box_in. revert i. induction axes as [|a axes IH]; intros [|x i] H; cbn [map in_box] in *; try discriminate; auto.
    apply andb_true_iff in H as [H Hi]. constructor; [lia|eauto].
  Qed.
  (** The connections of the two layers, on all axes. *)
  Lemma rel_zeros axes (cp tp : axis -> Z * Z) o j i : Forall (fun a => fst (tp a) = ad a * (ak a - 1) - fst (cp a)) axes ->
    List.length o = List.length axes -> List.length j = List.length axes -> List.length i = List.length axes ->
    veq (zip Z.mul i (map (fun _ => 1) axes)) (pos o (map as_ axes) j (map ad axes) (map cp axes)) =
    veq (zip Z.mul o (map as_ axes)) (pos i (map (fun _ => 1) axes) (flip_index (map ak axes) j) (map ad axes) (map tp axes)).
  Proof.
    intros H. revert o j i. induction H as [|a axes Ha H IH]; intros [|x o] [|y j] [|z i] Ho Hj Hi; cbn [List.length] in *; try lia; auto.
    unfold flip_index in *. cbn [map zip pos]. rewrite !veq_cons, IH by lia. f_equal. rewrite Ha. lia.
  Qed.

  Lemma conv_gd_inv (x z : @tensor R) w s ps ld rd g : conv_gd rO radd rmul x w s ps ld rd g = Ok z ->
    tch x mod g = 0 /\ tch x / g = win w /\ wout w mod g = 0 /\ 1 <= g /\
    z = {| tch := wout w; tsh := out_sizes (tsh x) ps (wsh w) s ld rd;
           tval := fun oc o => sum (zrange (win w)) (fun ic => sum (box (wsh w)) (fun j =>
              wval w oc ic j [*] ext rO (tsh x) ld (tval x (oc / (wout w / g) * win w + ic)) (pos o s j rd ps))) |}.
  Proof.
    unfold conv_gd. destruct (negb _); [discriminate|]. destruct (forallb _ _) eqn:E1; cbn [negb]; [|discriminate].
    destruct (_ && _)%bool eqn:E2; cbn [negb]; [|discriminate]. destruct (existsb _ _); [discriminate|]. intros H. inv H.
    cbn [forallb] in E1. do 4 (split; [lia|]). auto.
  Qed.

  Theorem adjoint_zeros t axes ci co w (x y z x' : @tensor R) : Forall ok_axis axes ->
    wsh w = map ak axes -> tsh x = map am axes ->
    conv_call rO radd rmul (layer_of t Zeros axes ci co 1) w None x = Ok z ->
    tch y = tch z -> tsh y = tsh z ->
    convt_call rO radd rmul (layer_of t Zeros axes co ci 1) (transpose_weight w) None y = Ok x' ->
    tsh x' = tsh x ->
    tch x' = tch x /\ dot rO radd rmul z y = dot rO radd rmul x x'.
  Proof.
    intros Hok Hw Hx Hc Hcy Hsy Ht Hs'.
    unfold conv_call in Hc. destruct (negb _); [discriminate|]. apply bind_ok in Hc as (ps & Hps & Hc). rewrite Hx, conv_pads_of in Hps by auto.
    injection Hps as <-. cbn [pmode layer_of stride nsd dilation groups] in Hc. apply bind_ok in Hc as (z0 & Hz & Hc). cbn [add_bias] in Hc. injection Hc as ->.
    apply conv_gd_inv in Hz as (_ & Hch & _ & _ & Ez). rewrite Z.div_1_r in Hch. rewrite Hx, Hw, repeat_map in Ez.
    unfold convt_call in Ht. destruct (negb _); [discriminate|]. rewrite padding_transpose_of in Ht. cbn [bind pmode layer_of stride nsd dilation groups] in Ht.
    apply bind_ok in Ht as (x0 & Hx' & Ht). cbn [add_bias] in Ht. injection Ht as ->.
    apply conv_gd_inv in Hx' as (_ & _ & _ & _ & Ex). rewrite repeat_map in Ex. cbn [transpose_weight wout win wsh wval] in Ex. rewrite Hw in Ex.
    assert (HN : tsh z = map (csize t) axes) by (rewrite Ez; cbn [tsh]; rewrite <- repeat_map; apply out_sizes_conv).
    rewrite Hsy, HN in Ex.
    assert (HM : map (fun a => tsize t a (csize t a)) axes = map am axes).
    { rewrite <- Hx, <- Hs', Ex. cbn [tsh]. rewrite <- repeat_map. symmetry. apply out_sizes_convt. }
    split; [rewrite Ex; cbn [tch]; auto|].
    assert (Hstr : Forall (fun a => 1 <= as_ a) axes) by (eapply Forall_impl; [|exact Hok]; intros a Ha; apply Ha).
    assert (Hone : Forall (fun a : axis => 1 <= 1) axes) by (apply Forall_forall; intros; lia).
    assert (Ltp : forall i j, List.length i = List.length axes -> List.length j = List.length axes -> List.length (pos i (map (fun _ => 1) axes) j (map ad axes) (map (tpad t) axes)) = List.length axes)
      by (intros; apply pos_len; rewrite ?map_length; auto).
    assert (Lcp : forall i j, List.length i = List.length axes -> List.length j = List.length axes -> List.length (pos i (map as_ axes) j (map ad axes) (map (cpad t) axes)) = List.length axes)
      by (intros; apply pos_len; rewrite ?map_length; auto).
    set (rel := fun o j i => veq (zip Z.mul i (map (fun _ => 1) axes)) (pos o (map as_ axes) j (map ad axes) (map (cpad t) axes))).
    transitivity (sum (zrange (wout w)) (fun oc => sum (box (map (csize t) axes)) (fun o =>
      sum (zrange (win w)) (fun ic => sum (box (map ak axes)) (fun j => wval w oc ic j [*] sum (box (map am axes)) (fun i => if rel o j i then tval x ic i else rO))) [*] tval y oc o))).
    - unfold dot. rewrite HN. rewrite Ez. cbn [tch tval]. apply sum_ext. intros oc Hoc. apply zrange_in in Hoc. apply sum_ext. intros o Ho. f_equal. apply sum_ext. intros ic Hic.
      apply sum_ext. intros j Hj. f_equal. rewrite oc_index by auto. apply (ext_sum axes am (fun _ => 1)); auto.
      apply Lcp; [rewrite (box_len _ _ Ho)|rewrite (box_len _ _ Hj)]; rewrite map_length; auto.
    - rewrite (adjoint_sums rO rI radd rmul Rth). unfold dot. rewrite Hch, Hx. apply sum_ext. intros ic Hic. apply zrange_in in Hic. apply sum_ext. intros i Hi. f_equal.
      rewrite Ex. cbn [tval]. apply sum_ext. intros oc Hoc. rewrite <- (sum_flip rO rI radd rmul Rth). apply sum_ext. intros j Hj. f_equal.
      rewrite oc_index by auto.
      assert (Li : List.length i = List.length axes) by (rewrite (box_len _ _ Hi), map_length; auto).
      assert (Lj : List.length j = List.length axes) by (rewrite (box_len _ _ Hj), map_length; auto).
      rewrite (ext_sum axes (csize t) as_) by auto. apply sum_ext. intros o Ho.
      assert (Lo : List.length o = List.length axes) by (rewrite (box_len _ _ Ho), map_length; auto).
      assert (Lf : List.length (flip_index (map ak axes) j) = List.length axes) by (rewrite (box_len (map ak axes)), map_length; auto; apply flip_flip; auto).
      unfold rel. rewrite (rel_zeros axes (cpad t) (tpad t)); auto.
      + rewrite (proj1 (flip_flip _ _ Hj)). auto.
      + pose proof (box_axes am axes i Hi) as H1. pose proof (box_axes (csize t) axes o Ho) as H2.
        clear - Hok H1 H2 HM. induction Hok as [|a l Ha Hok IH]; constructor; inv H1; inv H2; cbn [map] in HM; injection HM as E HM; auto using tpad_cpad.
  Qed.

  (** ** Circular padding *)
  Fixpoint all_axes (r : axis -> Z -> Z -> Z -> bool) (axes : list axis) (o j i : list Z) : bool :=
    match axes, o, j, i with
    | [], [], [], [] => true
    | a :: axes', x :: o', y :: j', z :: i' => r a x y z && all_axes r axes' o' j' i'
    | _, _, _, _ => false
    end.
  Definition crel t (a : axis) (o j i : Z) : bool := ((o * as_ a + j * ad a - fst (cpad t a)) mod am a =? i).

  Lemma tpad_pos t a : is_same t = true -> ok_axis a -> ao a = 0 -> 0 <= fst (tpad t a) /\ 0 <= snd (tpad t a).
  Proof.
    intros Ht (_ & Hk & Hs & Hd) Ha0. assert (HD : 0 <= ad a * (ak a - 1)) by nia.
    destruct t; try discriminate; unfold tpad, same_t; cbn [fst snd]; rewrite Ha0;
      destruct (Z.ltb_spec (ad a * (ak a - 1) - as_ a + 0 + 1) 0) as [H|H].
    - change ((0 + 0) / 2) with 0. lia.
    - pose proof (Z.div_mod (ad a * (ak a - 1) - as_ a + 0 + 1 + 0) 2 ltac:(lia)). pose proof (Z.mod_pos_bound (ad a * (ak a - 1) - as_ a + 0 + 1 + 0) 2 ltac:(lia)). lia.
    - change ((0 + 1) / 2) with 0. lia.
    - pose proof (Z.div_mod (ad a * (ak a - 1) - as_ a + 0 + 1 + 1) 2 ltac:(lia)). pose proof (Z.mod_pos_bound (ad a * (ak a - 1) - as_ a + 0 + 1 + 1) 2 ltac:(lia)). lia.
  Qed.
  Lemma circ_range s n p0 p1 D e i : 1 <= s -> 0 <= i < n * s -> 0 <= e <= D -> p0 + p1 = D + s - 1 ->
    (i + e - p0 mod s) mod s = 0 -> 0 <= (i + e - p0 mod s) / s < n + p0 / s + p1 / s.
  Proof.
    intros Hs Hi He HS Hz.
    pose proof (Z.div_mod p0 s ltac:(lia)) as HDp. pose proof (Z.mod_pos_bound p0 s ltac:(lia)) as HBp.
    pose proof (Z.div_mod p1 s ltac:(lia)) as HDq. pose proof (Z.mod_pos_bound p1 s ltac:(lia)) as HBq.
    pose proof (Z.div_mod (i + e - p0 mod s) s ltac:(lia)) as HDu. rewrite Hz in HDu. clear Hz.
    set (r0 := p0 mod s) in *. set (q0 := p0 / s) in *. set (r1 := p1 mod s) in *. set (q1 := p1 / s) in *. set (c := (i + e - r0) / s) in *.
    clearbody r0 q0 r1 q1 c. split.
    - assert (- s < s * c) by lia. clear - Hs H. nia.
    - assert (s * c < s * (n + q0 + q1)) by lia. clear - Hs H. nia.
  Qed.
  Lemma circ_axis t a : is_same t = true -> ok_axis a -> 1 <= am a -> ao a = 0 -> am a = csize t a * as_ a ->
    fst (tpad t a) = ad a * (ak a - 1) - fst (cpad t a) ->
    0 <= fst (tpad t a) /\ 0 <= snd (tpad t a) /\ 1 <= csize t a /\
    forall o j i, 0 <= o < csize t a -> 0 <= j < ak a -> 0 <= i < am a ->
    let p := tpad t a in let n := csize t a in let s := as_ a in
    let u := i * 1 + (ak a - 1 - j) * ad a - fst p mod s in
    (crel t a o j i = true <->
       (u mod s = 0 /\ 0 <= u / s < n + fst p / s + snd p / s) /\ o = (u / s - fst p / s) mod n).
  Proof.
    intros Ht Ha Hm Ha0 Hmn Hp. pose proof (tpad_sum t a Ht) as HS.
    assert (HP : 0 <= fst (tpad t a) /\ 0 <= snd (tpad t a)) by (apply tpad_pos; auto). destruct Ha as (_ & Hk & Hs & Hd).
    assert (HD : 0 <= ad a * (ak a - 1)) by nia.
    destruct HP as [HP0 HP1]. assert (Hn : 1 <= csize t a) by nia. do 3 (split; [auto|]).
    intros o j i Ho Hj Hi p n s u. fold p in HP0, HP1, HS, Hp. fold n in Hmn, Ho, Hn. fold s in Hs, HS, Hmn.
    unfold crel. rewrite Z.eqb_eq.
    set (q := i - j * ad a + fst (cpad t a)).
    assert (Hu : u = q + s * (fst p / s)). { unfold u, q. pose proof (Z.div_mod (fst p) s ltac:(lia)). lia. }
    assert (Hq : u mod s = 0 -> u / s - fst p / s = q / s /\ q mod s = 0).
    { intros Hz. rewrite Hu in *. rewrite (Z.mul_comm s), Z_mod_plus in Hz by lia. rewrite (Z.mul_comm s), Z.div_add by lia. split; [lia|auto]. }
    assert (HR : u mod s = 0 -> 0 <= u / s < n + fst p / s + snd p / s).
    { unfold u. rewrite Z.mul_1_r. apply (circ_range s n (fst p) (snd p) (ad a * (ak a - 1)) ((ak a - 1 - j) * ad a) i);
        [auto|rewrite <- Hmn; auto|clear - Hj Hd; nia|clear - HS Ha0; lia]. }
    assert (Hcore : ((o * s + j * ad a - fst (cpad t a)) mod am a = i <-> q mod s = 0 /\ o = (q / s) mod n)).
    { rewrite Hmn. assert (HNS : 0 < n * s) by (clear - Hn Hs; nia).
      pose proof (Z.div_mod (o * s + j * ad a - fst (cpad t a)) (n * s) ltac:(clear - HNS; lia)) as HA.
      pose proof (Z.mod_pos_bound (o * s + j * ad a - fst (cpad t a)) (n * s) HNS) as HB.
      set (A := (o * s + j * ad a - fst (cpad t a)) / (n * s)) in *. set (B := (o * s + j * ad a - fst (cpad t a)) mod (n * s)) in *. split.
      - intros E. assert (Eq : q = (o - n * A) * s). { clearbody A B. rewrite E in HA. unfold q. clearbody n s. clear - HA. lia. }
        rewrite Eq, Z_mod_mult, Z_div_mult by lia. split; [auto|].
        replace (o - n * A) with (o + (- A) * n) by (clear; lia). rewrite Z_mod_plus by (clear - Hn; lia). rewrite Z.mod_small by (clear - Ho; lia). auto.
      - intros [E1 E2]. pose proof (Z.div_mod q s ltac:(lia)) as HQ. pose proof (Z.div_mod (q / s) n ltac:(lia)) as HQ2.
        set (C := q / s / n) in *. rewrite <- E2 in HQ2.
        assert (EI : o * s + j * ad a - fst (cpad t a) = i + (- C) * (n * s)) .
        { clearbody C. rewrite HQ2, E1 in HQ. unfold q in HQ. clearbody n s. clear - HQ. lia. }
        unfold B. rewrite EI, Z_mod_plus by (clear - Hn Hs; nia). apply Z.mod_small. rewrite <- Hmn. auto. }
    refine (iff_trans Hcore _). clear Hcore. split.
    - intros [E1 E2]. assert (Hz : u mod s = 0) by (rewrite Hu, (Z.mul_comm s), Z_mod_plus by (clear - Hs; lia); auto).
      destruct (Hq Hz) as [E3 _]. rewrite E3. auto.
    - intros [[E1 E2] E3]. destruct (Hq E1) as [E4 E5]. rewrite E4 in E3. auto.
  Qed.

  (** The size of the output of the circular transposed convolution. *)
  Lemma circ_tsize t a n : is_same t = true -> ok_axis a -> 1 <= n -> 0 <= fst (tpad t a) -> 0 <= snd (tpad t a) ->
    out_size (n + fst (tpad t a) / as_ a + snd (tpad t a) / as_ a) (fst (tpad t a) mod as_ a) (snd (tpad t a) mod as_ a) (ak a) 1 (as_ a) (ad a)
    = tsize t a n.
  Proof.
    intros Ht (_ & Hk & Hs & Hd) Hn H0 H1. unfold tsize, out_size. rewrite !Z.div_1_r. do 3 f_equal.
    pose proof (Z.div_pos (fst (tpad t a)) (as_ a) H0 ltac:(lia)) as D0. pose proof (Z.div_pos (snd (tpad t a)) (as_ a) H1 ltac:(lia)) as D1.
    pose proof (Z.div_mod (fst (tpad t a)) (as_ a) ltac:(lia)) as E0. pose proof (Z.div_mod (snd (tpad t a)) (as_ a) ltac:(lia)) as E1.
    unfold dil. destruct (Z.eqb_spec n 0); [lia|]. destruct (Z.eqb_spec (n + fst (tpad t a) / as_ a + snd (tpad t a) / as_ a) 0); lia.
  Qed.
  Lemma circ_csize t a : is_same t = true -> ok_axis a ->
    0 <= fst (cpad t a) -> 0 <= snd (cpad t a) ->
    out_size (am a + fst (cpad t a) + snd (cpad t a)) 0 0 (ak a) (as_ a) 1 (ad a) = csize t a.
  Proof. intros Ht (Hm & Hk & Hs & Hd) H0 H1. unfold csize, out_size. rewrite !dil1 by lia. do 3 f_equal. lia. Qed.
  Lemma cpad_pos t a : is_same t = true -> 0 <= fst (cpad t a) /\ 0 <= snd (cpad t a).
  Proof.
    destruct t; try discriminate; intros _; unfold cpad, same_pads; cbn [fst snd];
    set (q := Z.max _ 0); assert (0 <= q) by lia; clearbody q; pose proof (Z.div_mod q 2 ltac:(lia)); pose proof (Z.mod_pos_bound q 2 ltac:(lia)); lia.
  Qed.
  Lemma csize_bound t a o j : ok_axis a -> is_same t = true -> 0 <= o < csize t a -> 0 <= j < ak a ->
    0 <= o * as_ a + j * ad a - 0 < am a + fst (cpad t a) + snd (cpad t a).
  Proof.
    intros (Hm & Hk & Hs & Hd) Ht Ho Hj. unfold csize, out_size in Ho. rewrite dil_win, dil1 in Ho by auto. unfold win_size in Ho.
    set (q := am a + fst (cpad t a) + snd (cpad t a)) in *. clearbody q.
    pose proof (Z.div_mod (q - (ad a * (ak a - 1) + 1)) (as_ a) ltac:(lia)) as HD. pose proof (Z.mod_pos_bound (q - (ad a * (ak a - 1) + 1)) (as_ a) ltac:(lia)) as HB.
    assert (HO : o <= (q - (ad a * (ak a - 1) + 1)) / as_ a) by lia.
    assert (as_ a * o <= as_ a * ((q - (ad a * (ak a - 1) + 1)) / as_ a)) by (apply Z.mul_le_mono_nonneg_l; lia).
    assert (j * ad a <= ad a * (ak a - 1)) by nia. nia.
  Qed.

  Lemma conv_circ t axes o j : is_same t = true -> Forall ok_axis axes -> Forall (fun a => 1 <= am a) axes ->
    in_box (map (csize t) axes) o = true -> in_box (map ak axes) j = true ->
    let P := pos o (map as_ axes) j (map ad axes) (map (fun _ => (0, 0)) axes) in
    let Q := zip Z.div P (map (fun _ => 1) axes) in
    let v := pad_indices Circular (map am axes) (map (cpad t) axes) Q in
    forallb (fun x => x =? 0) (zip Z.modulo P (map (fun _ => 1) axes)) = true /\
    in_box (zip (fun n p => n + fst p + snd p) (map am axes) (map (cpad t) axes)) Q = true /\
    in_box (map am axes) v = true /\
    forall i, in_box (map am axes) i = true -> (all_axes (crel t) axes o j i = true <-> i = v).
  Proof.
    intros Ht Hok Hm. revert o j. induction Hok as [|a axes Ha Hok IH]; intros [|x o] [|y j] Ho Hj; cbn [map in_box] in Ho, Hj; try discriminate.
    - cbn. do 3 (split; [auto|]). intros [|? ?] Hi; [tauto|discriminate].
    - inversion Hm as [|? ? Hma Hm']; subst. apply andb_true_iff in Ho as [Hx Ho]. apply andb_true_iff in Hj as [Hy Hj].
      specialize (IH Hm' o j Ho Hj). cbv zeta in IH |- *. destruct IH as (I1 & I2 & I3 & I4).
      assert (Hx' : 0 <= x < csize t a) by lia. assert (Hy' : 0 <= y < ak a) by lia.
      pose proof (csize_bound t a x y Ha Ht Hx' Hy') as HB.
      cbn [map pos zip forallb in_box pad_indices fst]. rewrite Z.mod_1_r, Z.div_1_r, I1, I2, I3. cbn [pad_index].
      pose proof (Z.mod_pos_bound (x * as_ a + y * ad a - 0 - fst (cpad t a)) (am a) ltac:(lia)) as HM.
      split; [auto|]. split; [lia|]. split; [lia|].
      intros [|z i] Hi; [discriminate|]. cbn [in_box] in Hi. apply andb_true_iff in Hi as [_ Hi]. cbn [all_axes].
      rewrite andb_true_iff, (I4 i Hi). unfold crel. rewrite Z.eqb_eq.
      replace (x * as_ a + y * ad a - fst (cpad t a)) with (x * as_ a + y * ad a - 0 - fst (cpad t a)) by lia.
      split; [intros [-> ->]; auto|intros E; injection E; auto].
  Qed.

  Definition sdiv (t : kind) (a : axis) : Z * Z := (fst (tpad t a) / as_ a, snd (tpad t a) / as_ a).
  Definition smod (t : kind) (a : axis) : Z * Z := (fst (tpad t a) mod as_ a, snd (tpad t a) mod as_ a).
  Definition good (t : kind) (a : axis) : Prop :=
    1 <= am a /\ ao a = 0 /\ am a = csize t a * as_ a /\ fst (tpad t a) = ad a * (ak a - 1) - fst (cpad t a).
  Lemma convt_circ t axes i j : is_same t = true -> Forall ok_axis axes -> Forall (good t) axes ->
    in_box (map am axes) i = true -> in_box (map ak axes) j = true ->
    let P := pos i (map (fun _ => 1) axes) (flip_index (map ak axes) j) (map ad axes) (map (smod t) axes) in
    let Q := zip Z.div P (map as_ axes) in
    let v := pad_indices Circular (map (csize t) axes) (map (sdiv t) axes) Q in
    in_box (map (csize t) axes) v = true /\
    forall o, in_box (map (csize t) axes) o = true ->
      (all_axes (crel t) axes o j i = true <->
       (forallb (fun x => x =? 0) (zip Z.modulo P (map as_ axes)) &&
        in_box (zip (fun n p => n + fst p + snd p) (map (csize t) axes) (map (sdiv t) axes)) Q)%bool = true /\ o = v).
  Proof.
    intros Ht Hok Hg. revert i j. induction Hok as [|a axes Ha Hok IH]; intros [|x i] [|y j] Hi Hj; cbn [map in_box] in Hi, Hj; try discriminate.
    - cbn. split; [auto|]. intros [|? ?] Ho; [tauto|discriminate].
    - inversion Hg as [|? ? (G1 & G2 & G3 & G4) Hg']; subst. apply andb_true_iff in Hi as [Hx Hi]. apply andb_true_iff in Hj as [Hy Hj].
      specialize (IH Hg' i j Hi Hj). cbv zeta in IH |- *. destruct IH as (I3 & I4).
      destruct (circ_axis t a Ht Ha G1 G2 G3 G4) as (P0 & P1 & Hn & HC).
      unfold flip_index in *. cbn [map pos zip forallb in_box pad_indices fst snd smod sdiv]. rewrite I3. cbn [pad_index].
      set (u := x * 1 + (ak a - 1 - y) * ad a - fst (tpad t a) mod as_ a).
      pose proof (Z.mod_pos_bound (u / as_ a - fst (tpad t a) / as_ a) (csize t a) ltac:(lia)) as HM.
      split; [lia|]. intros [|z o] Ho; [discriminate|]. cbn [in_box] in Ho. apply andb_true_iff in Ho as [Hz Ho]. cbn [all_axes].
      specialize (HC z y x ltac:(lia) ltac:(lia) ltac:(lia)). cbv zeta in HC. fold u in HC.
      rewrite andb_true_iff, (I4 o Ho), HC. rewrite !andb_true_iff, Z.eqb_eq, Z.leb_le, Z.ltb_lt. split.
      + intros [[[E1 [E2 E3]] ->] [[E4 E5] ->]]. repeat split; auto.
      + intros [[[E1 E4] [[E2 E3] E5]] E]. injection E as -> ->. repeat split; auto.
  Qed.

  Lemma jpad_inv m (x xp : @tensor R) ps : jpad m x ps = Ok xp ->
    xp = {| tch := tch x; tsh := zip (fun n p => n + fst p + snd p) (tsh x) ps; tval := fun c i => tval x c (pad_indices m (tsh x) ps i) |}.
  Proof. unfold jpad. destruct (negb _); [discriminate|]. destruct (existsb _ _); [discriminate|]. destruct (existsb _ _); [discriminate|]. intros H. inv H. auto. Qed.

  Theorem adjoint_circular t axes ci co w (x y z x' : @tensor R) : Forall ok_axis axes -> Forall (fun a => ao a = 0) axes -> is_same t = true ->
    wsh w = map ak axes -> tsh x = map am axes ->
    conv_call rO radd rmul (layer_of t Circular axes ci co 1) w None x = Ok z ->
    tch y = tch z -> tsh y = tsh z ->
    convt_call rO radd rmul (layer_of t Circular axes co ci 1) (transpose_weight w) None y = Ok x' ->
    tsh x' = tsh x ->
    tch x' = tch x /\ dot rO radd rmul z y = dot rO radd rmul x x'.
  Proof.
    intros Hok Hao Hsame Hw Hx Hc Hcy Hsy Ht Hs'.
    unfold conv_call in Hc. destruct (negb _); [discriminate|]. apply bind_ok in Hc as (ps & Hps & Hc). rewrite Hx, conv_pads_of in Hps by auto.
    injection Hps as <-. cbn [pmode layer_of stride nsd dilation groups] in Hc. apply bind_ok in Hc as (z0 & Hz & Hc). cbn [add_bias] in Hc. injection Hc as ->.
    apply bind_ok in Hz as (xp & Hxp & Hz). apply jpad_inv in Hxp.
    apply conv_gd_inv in Hz as (_ & Hch & _ & _ & Ez). rewrite Z.div_1_r in Hch. rewrite Hxp in Hch, Ez. cbn [tch tsh tval] in Hch, Ez. rewrite Hx, Hw, repeat_map, repeat_map' in Ez.
    unfold convt_call in Ht. destruct (negb _); [discriminate|]. rewrite padding_transpose_of in Ht. cbn [bind pmode layer_of stride nsd dilation groups] in Ht.
    apply bind_ok in Ht as ([yp pt] & Hcp & Ht). unfold circular_pad in Hcp. cbn [stride layer_of] in Hcp. apply bind_ok in Hcp as (yp0 & Hyp & Hcp). injection Hcp as -> <-.
    apply jpad_inv in Hyp.
    apply bind_ok in Ht as (x0 & Hx' & Ht). cbn [add_bias] in Ht. injection Ht as ->.
    apply conv_gd_inv in Hx' as (_ & _ & _ & _ & Ex). rewrite repeat_map in Ex. cbn [transpose_weight wout win wsh wval] in Ex. rewrite Hw in Ex.
    assert (E1 : zip (fun p s => (fst p / s, snd p / s)) (map (tpad t) axes) (map as_ axes) = map (sdiv t) axes) by (clear; induction axes as [|a l IH]; cbn [map zip]; [auto|rewrite IH; auto]).
    assert (E2 : zip (fun p s => (fst p mod s, snd p mod s)) (map (tpad t) axes) (map as_ axes) = map (smod t) axes) by (clear; induction axes as [|a l IH]; cbn [map zip]; [auto|rewrite IH; auto]).
    rewrite E1 in Hyp. rewrite E2, Hyp in Ex. cbn [tsh tval] in Ex. clear E1 E2.
    assert (HN : tsh z = map (csize t) axes).
    { rewrite Ez; cbn [tsh]. clear - Hok Hsame. induction Hok as [|a l Ha Hok IH]; cbn [map zip out_sizes]; auto. rewrite IH. cbn [fst snd].
      rewrite circ_csize; auto; apply cpad_pos; auto. }
    rewrite Hsy, HN in Ex.
    assert (HM : Forall (fun a => out_size (csize t a + fst (sdiv t a) + snd (sdiv t a)) (fst (smod t a)) (snd (smod t a)) (ak a) 1 (as_ a) (ad a) = am a) axes).
    { rewrite Hx, Ex in Hs'. cbn [tsh] in Hs'. clear - Hs'. induction axes as [|a l IH]; constructor; cbn [map zip out_sizes] in Hs'; injection Hs' as E Hs'; auto. }
    split; [rewrite Ex; cbn [tch]; auto|].
    transitivity (sum (zrange (wout w)) (fun oc => sum (box (map (csize t) axes)) (fun o =>
      sum (zrange (win w)) (fun ic => sum (box (map ak axes)) (fun j => wval w oc ic j [*] sum (box (map am axes)) (fun i => if all_axes (crel t) axes o j i then tval x ic i else rO))) [*] tval y oc o))).
    - unfold dot. rewrite HN. rewrite Ez. cbn [tch tval]. apply sum_ext. intros oc Hoc. apply zrange_in in Hoc. apply sum_ext. intros o Ho. f_equal. apply sum_ext. intros ic Hic.
      apply sum_ext. intros j Hj. f_equal. rewrite oc_index by auto.
      assert (Hm : Forall (fun a => 1 <= am a) axes).
      { pose proof (box_axes _ _ _ Ho) as HF. clear - HF Hok Hsame. induction Hok as [|a l Ha Hok IH]; constructor; inversion HF as [|? ? Hn HF']; subst; auto.
        destruct (Z.eq_dec (am a) 0) as [E|N]; [|destruct Ha; lia]. exfalso.
        destruct Ha as (_ & Hk & Hs & Hd). unfold csize, out_size in Hn. rewrite <- Z.add_assoc, cpad_sum, dil_win in Hn by auto. rewrite E in Hn.
        change (dil 0 1) with 0 in Hn. rewrite Z.div_0_l in Hn by lia. unfold win_size in Hn.
        assert (0 <= ad a * (ak a - 1)) by nia.
        assert ((0 + Z.max ((-0 - 1) * as_ a + (ad a * (ak a - 1) + 1) - 0) 0 - (ad a * (ak a - 1) + 1)) / as_ a < 0) by (apply Z.div_lt_upper_bound; lia).
        lia. }
      apply box_in in Ho. apply box_in in Hj. destruct (conv_circ t axes o j Hsame Hok Hm Ho Hj) as (C1 & C2 & C3 & C4). cbv zeta in C1, C2, C3, C4.
      unfold ext. rewrite C1, C2. cbn [andb]. symmetry. apply (sum_sel rO rI radd rmul Rth) with (b := true).
      + apply box_nodup.
      + intros _. apply box_in. auto.
      + intros i Hi. apply box_in in Hi. rewrite (C4 i Hi). intuition.
    - rewrite (adjoint_sums rO rI radd rmul Rth). unfold dot. rewrite Hch, Hx. apply sum_ext. intros ic Hic. apply zrange_in in Hic. apply sum_ext. intros i Hi. f_equal.
      rewrite Ex. cbn [tval]. apply sum_ext. intros oc Hoc. rewrite <- (sum_flip rO rI radd rmul Rth). apply sum_ext. intros j Hj. f_equal.
      rewrite oc_index by auto.
      assert (HG : Forall (good t) axes).
      { pose proof (box_axes _ _ _ Hi) as HF. clear - HF Hok Hsame Hao HM. induction Hok as [|a l Ha Hok IH]; constructor; inversion HF as [|? ? Hma HF']; inversion HM as [|? ? Hta HM']; inversion Hao as [|? ? Ha0 Hao']; subst; auto.
        pose proof (csize_same t a Hsame Ha Hma) as HC. assert (Hn : 1 <= csize t a).
        { rewrite HC. pose proof (ceil_bounds (am a) (as_ a) ltac:(destruct Ha; lia)) as HB. destruct Ha as (_ & _ & Hs & _). set (c := - ((- am a) / as_ a)) in *. clearbody c. clear - HB Hma Hs. nia. }
        assert (HP : 0 <= fst (tpad t a) /\ 0 <= snd (tpad t a)) by (apply tpad_pos; auto).
        cbn [sdiv smod fst snd] in Hta. rewrite circ_tsize in Hta by (auto; apply HP).
        pose proof (tpad_cpad t a Ha Hma Hn Hta) as HT. rewrite tsize_same in Hta by auto. rewrite Ha0 in Hta.
        unfold good. do 2 (split; [auto|]). split; [|auto]. clear - Hta Hma. lia. }
      assert (Hj' : In (flip_index (map ak axes) j) (box (map ak axes))) by (apply flip_flip; auto).
      apply box_in in Hi. apply box_in in Hj'. destruct (convt_circ t axes i _ Hsame Hok HG Hi Hj') as (C3 & C4). cbv zeta in C3, C4.
      rewrite (proj1 (flip_flip _ _ Hj)) in C3, C4.
      unfold ext. apply (sum_sel rO rI radd rmul Rth).
      + apply box_nodup.
      + intros _. apply box_in. auto.
      + intros o Ho. apply box_in in Ho. apply C4. auto.
  Qed.
End Ring.
