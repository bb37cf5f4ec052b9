(** C90: what [Conv] computes: equinox/nn/_conv.py lines 70-250 (model: Conv_Model, [conv_call]). *)
From Verif Require Import Conv_Proofs2.
Local Open Scope Z_scope.
Local Open Scope list_scope.

Lemma mode_zeros (m : mode) : {m = Zeros} + {m <> Zeros}.
Proof. destruct m; [left|right|right|right]; congruence. Qed.
Lemma pad_index_range m n v : m <> Zeros -> 1 <= n -> 0 <= pad_index m n v < n.
Proof.
  intros Hm Hn. destruct m; [congruence| | |]; cbn [pad_index].
  - destruct (Z.eqb_spec n 1); [lia|]. pose proof (Z.mod_pos_bound v (2 * (n - 1)) ltac:(lia)). destruct (Z.ltb_spec (v mod (2 * (n - 1))) n); lia.
  - lia.
  - apply Z.mod_pos_bound. lia.
Qed.
Lemma pad_index_id m n v : 0 <= v < n -> pad_index m n v = v.
Proof.
  intros H. destruct m; cbn [pad_index]; auto.
  - destruct (Z.eqb_spec n 1); [lia|]. rewrite Z.mod_small by lia. destruct (Z.ltb_spec v n); lia.
  - lia.
  - apply Z.mod_small. lia.
Qed.

Section Spec.
  Context {R : Type} (rO : R) (radd rmul : R -> R -> R).
  (** [E] extends [x], an array of shape [ns] (per channel), to all places, as documented (lines 127-133):
      ZEROS 1234 -> 00123400, REFLECT 1234 -> 32123432, REPLICATE 1234 -> 11123444, CIRCULAR 1234 -> 34123412. *)
  Definition extension (m : mode) (ns : list Z) (x E : Z -> list Z -> R) : Prop :=
    (forall c i, In i (box ns) -> E c i = x c i) /\
    forall c ns1 n ns2 l1 v l2, ns = ns1 ++ n :: ns2 -> List.length l1 = List.length ns1 -> List.length l2 = List.length ns2 ->
      let at_ u := E c (l1 ++ u :: l2) in
      match m with
      | Zeros => v < 0 \/ n <= v -> at_ v = rO
      | Reflect => at_ (- v) = at_ v /\ at_ (n - 1 + v) = at_ (n - 1 - v) /\ (n = 1 -> at_ v = at_ 0)
      | Replicate => (v < 0 -> at_ v = at_ 0) /\ (n <= v -> at_ v = at_ (n - 1))
      | Circular => at_ (v + n) = at_ v
      end.
  (** The sum of [f 0], ..., [f (n - 1)]; the same over all places of an array. *)
  Fixpoint total (n : nat) (f : Z -> R) : R :=
    match n with O => rO | S n => radd (f 0) (total n (fun i => f (1 + i))) end.
  (** The place under entry [j] of the kernel, for the output at [o]. *)
  Fixpoint place (pad0 : axis -> Z) (axes : list axis) (o j : list Z) : list Z :=
    match axes, o, j with
    | a :: axes, o0 :: o, j0 :: j => o0 * as_ a + j0 * ad a - pad0 a :: place pad0 axes o j
    | _, _, _ => []
    end.
  Definition out_len (p : Z * Z) (a : axis) : Z := Z.max 0 ((am a + fst p + snd p - (ad a * (ak a - 1) + 1)) / as_ a + 1).
  Definition correlation (w : weight) (b : option (Z -> R)) (g : Z) (axes : list axis) (pad0 : axis -> Z) (E : Z -> list Z -> R) (oc : Z) (o : list Z) : R :=
    let y := total (Z.to_nat (win w)) (fun ic => sum rO radd (box (map ak axes)) (fun j =>
               rmul (wval w oc ic j) (E (oc / (wout w / g) * win w + ic) (place pad0 axes o j)))) in
    match b with Some b => radd y (b oc) | None => y end.

  Lemma sum_ext' {A} (l : list A) f g : (forall a, In a l -> f a = g a) -> sum rO radd l f = sum rO radd l g.
  Proof using rO radd. clear rmul. induction l as [|a l IH]; intros H; auto. cbn [sum fold_right]. unfold sum in *. cbn [fold_right]. rewrite H by (left; auto). rewrite IH; auto. intros; apply H; right; auto. Qed.
  Lemma sum_mapped {A B} (h : A -> B) l f : sum rO radd (map h l) f = sum rO radd l (fun a => f (h a)).
  Proof using rO radd. clear rmul. unfold sum. induction l as [|a l IH]; cbn [map fold_right]; auto. rewrite IH. auto. Qed.
  Lemma total_sum n : forall f, total n f = sum rO radd (map Z.of_nat (seq 0 n)) f.
  Proof using rO radd. clear rmul.
    induction n as [|n IH]; intros f; [reflexivity|]. transitivity (radd (f 0) (sum rO radd (map Z.of_nat (seq 1 n)) f)); [|reflexivity]. cbn [total]. f_equal. rewrite IH.
    rewrite <- seq_shift, map_map, !sum_mapped. apply sum_ext'. intros k _. f_equal. lia.
  Qed.

  (** *** One axis of an extension *)
  Lemma circ_axis_ext (F : Z -> R) n : 1 <= n -> (forall v, F (v + n) = F v) -> forall v, F v = F (v mod n).
  Proof using R. clear rO radd rmul.
    intros Hn HF. assert (HP : forall k v, F (v + Z.of_nat k * n) = F v).
    { induction k as [|k IH]; intros v; [f_equal; lia|]. replace (v + Z.of_nat (S k) * n) with ((v + Z.of_nat k * n) + n) by lia. rewrite HF. apply IH. }
    intros v. pose proof (Z.div_mod v n ltac:(lia)) as HD. destruct (Z_le_gt_dec 0 (v / n)) as [H|H].
    - rewrite <- (HP (Z.to_nat (v / n)) (v mod n)). f_equal. rewrite Z2Nat.id by lia. lia.
    - rewrite <- (HP (Z.to_nat (- (v / n))) v). f_equal. rewrite Z2Nat.id by lia. lia.
  Qed.
  Lemma reflect_axis_ext (F : Z -> R) n : 1 <= n -> (forall v, F (- v) = F v) -> (forall v, F (n - 1 + v) = F (n - 1 - v)) ->
    (forall v, n = 1 -> F v = F 0) -> forall v, F v = F (pad_index Reflect n v).
  Proof using R. clear rO radd rmul.
    intros Hn H1 H2 H3 v. cbn [pad_index]. destruct (Z.eqb_spec n 1) as [E|N]; [apply H3; auto|].
    assert (HP : forall v, F (v + 2 * (n - 1)) = F v).
    { intros u. replace (u + 2 * (n - 1)) with (n - 1 + (u + (n - 1))) by lia. rewrite H2. replace (n - 1 - (u + (n - 1))) with (- u) by lia. auto. }
    rewrite (circ_axis_ext F (2 * (n - 1)) ltac:(lia) HP v). destruct (Z.ltb_spec (v mod (2 * (n - 1))) n); auto.
    set (q := v mod (2 * (n - 1))). replace q with (n - 1 + (q - (n - 1))) at 1 by lia. rewrite H2. f_equal. lia.
  Qed.
  Lemma axis_ext m ns x E : extension m ns x E -> m <> Zeros -> forall c ns1 n ns2 l1 v l2, 1 <= n ->
    ns = ns1 ++ n :: ns2 -> List.length l1 = List.length ns1 -> List.length l2 = List.length ns2 ->
    E c (l1 ++ v :: l2) = E c (l1 ++ pad_index m n v :: l2).
  Proof using rO. clear radd rmul.
    intros [_ HE] Hm c ns1 n ns2 l1 v l2 Hn Hns H1 H2. pose proof (fun v => HE c ns1 n ns2 l1 v l2 Hns H1 H2) as L. cbv zeta in L. clear HE.
    destruct m; [congruence| | |].
    - apply (reflect_axis_ext (fun u => E c (l1 ++ u :: l2)) n Hn); intros u; [apply L|apply L|apply (proj2 (proj2 (L u)))].
    - cbn [pad_index]. destruct (L v) as [La Lb]. destruct (Z_lt_ge_dec v 0) as [H|H].
      + rewrite La by lia. do 3 f_equal. lia.
      + destruct (Z_lt_ge_dec v n) as [H'|H']; [do 3 f_equal; lia|]. rewrite Lb by lia. do 3 f_equal. lia.
    - cbn [pad_index]. apply (circ_axis_ext (fun u => E c (l1 ++ u :: l2)) n Hn L).
  Qed.
  Lemma all_axes_ext m ns x E : extension m ns x E -> m <> Zeros -> forall c ns2 ns1 l1 l2, Forall (fun n => 1 <= n) ns2 -> ns = ns1 ++ ns2 ->
    List.length l1 = List.length ns1 -> List.length l2 = List.length ns2 -> E c (l1 ++ l2) = E c (l1 ++ zip (pad_index m) ns2 l2).
  Proof using rO. clear radd rmul.
    intros HE Hm c ns2. induction ns2 as [|n ns2 IH]; intros ns1 l1 [|v l2] HF Hns H1 H2; cbn [List.length zip] in *; try lia; auto.
    inversion HF as [|? ? Hn HF']; subst. injection H2 as H2. rewrite (axis_ext m _ x E HE Hm c ns1 n ns2 l1 v l2 Hn eq_refl H1 H2).
    change (l1 ++ pad_index m n v :: l2) with (l1 ++ [pad_index m n v] ++ l2). rewrite app_assoc.
    rewrite (IH (ns1 ++ [n]) (l1 ++ [pad_index m n v]) l2); auto.
    - rewrite <- app_assoc. reflexivity.
    - rewrite <- app_assoc. reflexivity.
    - rewrite !app_length. cbn. lia.
  Qed.
  Lemma ext_in_box m ns x E c i : extension m ns x E -> m <> Zeros -> Forall (fun n => 1 <= n) ns -> List.length i = List.length ns ->
    E c i = x c (zip (pad_index m) ns i).
  Proof using rO. clear radd rmul.
    intros HE Hm HF Hl. pose proof (all_axes_ext m ns x E HE Hm c ns [] [] i HF eq_refl eq_refl Hl) as H. cbn [app] in H. rewrite H.
    apply HE. apply box_in. clear - HF Hm Hl. revert i Hl. induction HF as [|n ns Hn HF IH]; intros [|v i] Hl; cbn [List.length zip in_box] in *; try lia; auto.
    pose proof (pad_index_range m n v Hm Hn). rewrite IH by lia. lia.
  Qed.
  Lemma zeros_ext ns x E c i : extension Zeros ns x E -> List.length i = List.length ns -> E c i = if in_box ns i then x c i else rO.
  Proof using rO. clear radd rmul.
    intros [HE1 HE2] Hl. destruct (in_box ns i) eqn:F; [apply HE1, box_in; auto|].
    assert (HS : exists ns1 n ns2 l1 v l2, ns = ns1 ++ n :: ns2 /\ i = l1 ++ v :: l2 /\ List.length l1 = List.length ns1 /\ List.length l2 = List.length ns2 /\ (v < 0 \/ n <= v)).
    { clear HE1 HE2. revert i Hl F. induction ns as [|n ns IH]; intros [|v i] Hl F; cbn [List.length in_box] in *; try discriminate.
      injection Hl as Hl. destruct (Z_lt_ge_dec v 0) as [H|H]; [exists [], n, ns, [], v, i; cbn; auto 10|].
      destruct (Z_lt_ge_dec v n) as [H'|H']; [|exists [], n, ns, [], v, i; cbn; repeat split; auto; right; lia].
      destruct (IH i Hl) as (ns1 & n' & ns2 & l1 & v' & l2 & -> & -> & L1 & L2 & HV); [destruct (in_box ns i); auto; lia|].
      exists (n :: ns1), n', ns2, (v :: l1), v', l2. cbn. repeat split; auto. }
    destruct HS as (ns1 & n & ns2 & l1 & v & l2 & -> & -> & L1 & L2 & HV). apply (HE2 c ns1 n ns2 l1 v l2 eq_refl L1 L2 HV).
  Qed.

  (** Every array with non-empty axes has an extension, and it is determined. *)
  Theorem C90_extension : forall m ns x, m = Zeros \/ Forall (fun n => 1 <= n) ns ->
    (exists E, extension m ns x E) /\
    forall E E', extension m ns x E -> extension m ns x E' -> forall c i, List.length i = List.length ns -> E c i = E' c i.
  Proof using rO. clear radd rmul.
    intros m ns x HF. split.
    - destruct (mode_zeros m) as [->|Hm].
      + exists (fun c i => if in_box ns i then x c i else rO). split; [intros c i H; apply box_in in H; rewrite H; auto|].
        intros c ns1 n ns2 l1 v l2 -> L1 L2. cbv zeta. intros HV. cbv beta. destruct (in_box (ns1 ++ n :: ns2) (l1 ++ v :: l2)) eqn:F; auto. exfalso. clear -F HV L1. revert l1 L1 F.
        induction ns1 as [|k ns1 IH]; intros [|u l1] L1 F; cbn [List.length app in_box] in *; apply andb_true_iff in F as [F1 F2]; try lia. apply (IH l1); [lia|auto].
      + destruct HF as [?|HF]; [congruence|]. exists (fun c i => x c (zip (pad_index m) ns i)). split.
        * intros c i H. f_equal. apply box_in in H. clear -H. revert i H. induction ns as [|n ns IH]; intros [|v i] H; cbn [in_box zip] in *; try discriminate; auto.
          apply andb_true_iff in H as [H Hi]. rewrite IH by auto. f_equal. apply pad_index_id. lia.
        * intros c ns1 n ns2 l1 v l2 -> L1 L2. cbv zeta. apply Forall_app in HF as [_ HF]. inversion HF as [|? ? Hn _]; subst.
          assert (HZ : forall u, zip (pad_index m) (ns1 ++ n :: ns2) (l1 ++ u :: l2) = zip (pad_index m) ns1 l1 ++ pad_index m n u :: zip (pad_index m) ns2 l2).
          { intros u. clear -L1. revert l1 L1. induction ns1 as [|k ns1 IH]; intros [|u' l1] L1; cbn [List.length app zip] in *; try lia; auto. rewrite IH by lia. auto. }
          assert (HU : forall u u', pad_index m n u = pad_index m n u' -> x c (zip (pad_index m) (ns1 ++ n :: ns2) (l1 ++ u :: l2)) = x c (zip (pad_index m) (ns1 ++ n :: ns2) (l1 ++ u' :: l2))).
          { intros u u' HU. rewrite !HZ, HU. auto. }
          destruct m; [congruence| | |].
          -- assert (HR : n <> 1 -> forall a b, (exists k, a = b + k * (2 * (n - 1))) \/ (exists k, a = - b + k * (2 * (n - 1))) -> pad_index Reflect n a = pad_index Reflect n b).
             { intros HN a b H. cbn [pad_index]. destruct (Z.eqb_spec n 1); [lia|]. destruct H as [[k ->]|[k ->]].
               - rewrite Z.mod_add by lia. auto.
               - rewrite Z.mod_add by lia. destruct (Z.eq_dec (b mod (2 * (n - 1))) 0) as [Eb|Nb].
                 + rewrite Z.mod_opp_l_z by (auto; lia). rewrite Eb. auto.
                 + rewrite Z.mod_opp_l_nz by (auto; lia). pose proof (Z.mod_pos_bound b (2 * (n - 1)) ltac:(lia)) as HB. set (q := b mod (2 * (n - 1))) in *.
                   destruct (Z.ltb_spec (2 * (n - 1) - q) n); destruct (Z.ltb_spec q n); lia. }
             destruct (Z.eq_dec n 1) as [->|N].
             ++ split; [|split]; [| |intros _]; apply HU; reflexivity.
             ++ split; [|split]; [| |intros; lia]; apply HU, HR; auto; right; [exists 0; lia|exists 1; lia].
          -- split; intros H; apply HU; cbn [pad_index]; lia.
          -- apply HU. cbn [pad_index]. replace (v + n) with (v + 1 * n) by lia. apply Z.mod_add. lia.
    - intros E E' H H' c i Hl. destruct (mode_zeros m) as [->|Hm].
      + rewrite (zeros_ext ns x E c i), (zeros_ext ns x E' c i) by auto. auto.
      + destruct HF as [?|HF]; [congruence|]. rewrite (ext_in_box m ns x E c i), (ext_in_box m ns x E' c i) by auto. auto.
  Qed.
End Spec.
Print Assumptions C90_extension.

Lemma pos_place pad axes : forall o j, List.length o = List.length axes -> List.length j = List.length axes ->
  pos o (map as_ axes) j (map ad axes) (map pad axes) = place (fun a => fst (pad a)) axes o j.
Proof. induction axes as [|a axes IH]; intros [|x o] [|y j] Ho Hj; cbn [List.length map pos place] in *; try lia; auto. rewrite IH by lia. auto. Qed.
Lemma place_len pad0 axes : forall o j, List.length o = List.length axes -> List.length j = List.length axes -> List.length (place pad0 axes o j) = List.length axes.
Proof. induction axes as [|a axes IH]; intros [|x o] [|y j] Ho Hj; cbn [List.length place] in *; try lia. rewrite IH; lia. Qed.
Lemma in_box_len ns i : in_box ns i = true -> List.length i = List.length ns.
Proof. intros H. apply box_len, box_in. auto. Qed.
Lemma ext_ones {R} (rO : R) sh F t : List.length t = List.length sh -> ext rO sh (map (fun _ => 1) sh) F t = if in_box sh t then F t else rO.
Proof.
  intros Hl. unfold ext. assert (H : zip Z.div t (map (fun _ => 1) sh) = t /\ forallb (fun x => x =? 0) (zip Z.modulo t (map (fun _ => 1) sh)) = true).
  { revert t Hl. induction sh as [|n sh IH]; intros [|v t] Hl; cbn [List.length map zip forallb] in *; try lia; auto.
    destruct (IH t ltac:(lia)) as [E1 E2]. rewrite Z.div_1_r, Z.mod_1_r, E1, E2. auto. }
  destruct H as [-> ->]. reflexivity.
Qed.

Section Value.
  Context {R : Type} (rO : R) (radd rmul : R -> R -> R).
  (** The output sizes and values: a sum over the input channels of the group and the entries of the kernel. *)
  Theorem C90_value : forall t m axes ci co g w b (x z : @tensor R) E, Forall ok_axis axes ->
    wsh w = map ak axes -> tsh x = map am axes -> extension rO m (map am axes) (tval x) E ->
    conv_call rO radd rmul (layer_of t m axes ci co g) w b x = Ok z ->
    tch x = g * win w /\ tch z = wout w /\ tsh z = map (fun a => out_len (cpad t a) a) axes /\
    forall oc o, In o (box (tsh z)) -> tval z oc o = correlation rO radd rmul w b g axes (fun a => fst (cpad t a)) E oc o.
  Proof.
    intros t m axes ci co g w b x z E Hok Hw Hx HE Hc. unfold conv_call in Hc. destruct (negb _); [discriminate|].
    apply bind_ok in Hc as (ps & Hps & Hc). rewrite Hx, conv_pads_of in Hps by auto. injection Hps as <-.
    cbn [pmode layer_of stride nsd dilation groups] in Hc. apply bind_ok in Hc as (z0 & Hz & Hc).
    assert (HB : tch z = tch z0 /\ tsh z = tsh z0 /\ forall oc o, tval z oc o = match b with Some f => radd (tval z0 oc o) (f oc) | None => tval z0 oc o end).
    { destruct b; cbn [add_bias] in Hc; injection Hc as <-; cbn [tch tsh tval]; auto. }
    destruct HB as (HB1 & HB2 & HB3). rewrite HB1, HB2.
    assert (Hgoal : tch x = g * win w /\ tch z0 = wout w /\ tsh z0 = map (fun a => out_len (cpad t a) a) axes /\
      forall oc o, In o (box (tsh z0)) -> tval z0 oc o = correlation rO radd rmul w None g axes (fun a => fst (cpad t a)) E oc o).
    2: { destruct Hgoal as (G1 & G2 & G3 & G4). do 3 (split; [auto|]). intros oc o Ho. rewrite HB3, G4 by auto. destruct b; auto. }
    clear HB1 HB2 HB3 Hc z b.
    assert (HOL : map (csize t) axes = map (fun a => out_len (cpad t a) a) axes).
    { clear -Hok. induction Hok as [|a l Ha Hok IH]; cbn [map]; auto. rewrite IH. f_equal. destruct Ha as (H1 & H2 & H3 & H4). unfold csize, out_size, out_len.
      rewrite dil_win, dil1 by auto. reflexivity. }
    destruct (mode_zeros m) as [->|Hm].
    - apply conv_gd_inv in Hz as (Hd & Hch & _ & Hg & ->). cbn [tch tsh tval]. rewrite Hx, Hw, out_sizes_conv.
      split; [rewrite <- Hch; apply Z.div_exact; lia|]. split; [auto|]. split; [auto|]. intros oc o Ho. unfold correlation. rewrite total_sum. apply sum_ext'. intros ic _.
      apply sum_ext'. intros j Hj. f_equal. apply box_len in Ho. apply box_len in Hj. rewrite map_length in Ho, Hj.
      rewrite pos_place by auto. replace (repeat 1 (List.length axes)) with (map (fun _ : Z => 1) (map am axes)) by (rewrite map_map, repeat_map; auto).
      rewrite ext_ones by (rewrite place_len, map_length; auto). symmetry. apply zeros_ext with (1 := HE). rewrite place_len, map_length; auto.
    - assert (Hz' : bind (jpad m x (map (cpad t) axes)) (fun xp => conv_gd rO radd rmul xp w (map as_ axes) (repeat (0, 0) (List.length axes)) (repeat 1 (List.length axes)) (map ad axes) g) = Ok z0)
        by (destruct m; auto; congruence). clear Hz.
      apply bind_ok in Hz' as (xp & Hxp & Hz). assert (HP : Forall (fun a => 0 <= fst (cpad t a) /\ 0 <= snd (cpad t a)) axes).
      { unfold jpad in Hxp. destruct (negb _); [discriminate|]. destruct (existsb _ (map (cpad t) axes)) eqn:F; [discriminate|]. clear -F.
        induction axes as [|a l IH]; constructor; cbn [map existsb] in F; apply orb_false_iff in F as [F1 F2]; auto. lia. }
      assert (HZ : Forall (fun a => am a = 0 -> fst (cpad t a) + snd (cpad t a) <= 0) axes).
      { unfold jpad in Hxp. rewrite Hx in Hxp. destruct (negb _); [discriminate|]. destruct (existsb _ (map (cpad t) axes)); [discriminate|].
        destruct (existsb _ (zip _ (map am axes) (map (cpad t) axes))) eqn:F; [discriminate|]. clear -F.
        induction axes as [|a l IH]; constructor; cbn [map zip existsb] in F; apply orb_false_iff in F as [F1 F2]; auto. lia. }
      apply jpad_inv in Hxp. apply conv_gd_inv in Hz as (Hd & Hch & _ & Hg & ->). rewrite Hxp in *. cbn [tch tsh tval] in *. clear xp Hxp. rewrite Hx, Hw.
      assert (HS : out_sizes (zip (fun n p => n + fst p + snd p) (map am axes) (map (cpad t) axes)) (repeat (0, 0) (List.length axes)) (map ak axes) (map as_ axes) (repeat 1 (List.length axes)) (map ad axes)
                   = map (csize t) axes).
      { clear -Hok HP. induction Hok as [|a l Ha Hok IH]; cbn [map zip out_sizes List.length repeat]; auto. inversion HP as [|? ? Hp HP']; subst. rewrite IH by auto. f_equal.
        destruct Ha as (H1 & H2 & H3 & H4). unfold csize, out_size. cbn [fst snd]. rewrite !dil1 by lia. do 3 f_equal. lia. }
      rewrite HS. split; [rewrite <- Hch; apply Z.div_exact; lia|]. split; [auto|]. split; [auto|]. intros oc o Ho. unfold correlation. rewrite total_sum. apply sum_ext'. intros ic _.
      apply sum_ext'. intros j Hj. f_equal. apply box_in in Ho. apply box_in in Hj.
      pose proof (in_box_len _ _ Ho) as Lo. pose proof (in_box_len _ _ Hj) as Lj. rewrite map_length in Lo, Lj.
      assert (Hn : Forall (fun n => 1 <= n) (map am axes)).
      { clear -Hok HZ Ho. revert o Ho. induction Hok as [|a l Ha Hok IH]; intros [|v o] Ho; cbn [map in_box] in *; constructor; try discriminate;
          inversion HZ as [|? ? Hz HZ']; subst; apply andb_true_iff in Ho as [Ho1 Ho2]; [|eauto].
        destruct (Z.eq_dec (am a) 0) as [E0|N0]; [|destruct Ha; lia]. exfalso. specialize (Hz E0). destruct Ha as (H1 & H2 & H3 & H4).
        unfold csize, out_size in Ho1. rewrite dil_win, dil1 in Ho1 by auto. unfold win_size in Ho1. rewrite E0 in Ho1.
        assert (HQ : (0 + fst (cpad t a) + snd (cpad t a) - (ad a * (ak a - 1) + 1)) / as_ a < 0) by (apply Z.div_lt_upper_bound; nia). lia. }
      rewrite (ext_in_box rO m (map am axes) (tval x) E) by (auto; rewrite place_len, map_length; auto).
      rewrite (repeat_map' axes (0, 0)). rewrite (pos_place (fun _ => (0, 0))) by auto. cbn [fst].
      assert (HL : List.length (place (fun _ => 0) axes o j) = List.length (zip (fun n p => n + fst p + snd p) (map am axes) (map (cpad t) axes))).
      { rewrite place_len by auto. clear. induction axes as [|a l IH]; cbn [map zip List.length]; auto. }
      replace (repeat 1 (List.length axes)) with (map (fun _ : Z => 1) (zip (fun n p => n + fst p + snd p) (map am axes) (map (cpad t) axes)))
        by (clear; induction axes as [|a l IH]; cbn [map zip List.length repeat]; [auto|rewrite IH; auto]).
      rewrite ext_ones by auto.
      assert (HIn : in_box (zip (fun n p => n + fst p + snd p) (map am axes) (map (cpad t) axes)) (place (fun _ => 0) axes o j) = true /\
        pad_indices m (map am axes) (map (cpad t) axes) (place (fun _ => 0) axes o j) = zip (pad_index m) (map am axes) (place (fun a => fst (cpad t a)) axes o j)).
      { clear -Hok Ho Hj. revert o j Ho Hj. induction Hok as [|a l Ha Hok IH]; intros [|v o] [|u j] Ho Hj; cbn [map in_box zip place pad_indices] in *; try discriminate; auto.
        apply andb_true_iff in Ho as [Hv Ho]. apply andb_true_iff in Hj as [Hu Hj]. destruct (IH o j Ho Hj) as [I1 I2]. rewrite I1, I2.
        destruct Ha as (H1 & H2 & H3 & H4). unfold csize, out_size in Hv. rewrite dil_win, dil1 in Hv by auto. unfold win_size in Hv.
        set (q := am a + fst (cpad t a) + snd (cpad t a)) in *.
        pose proof (Z.div_mod (q - (ad a * (ak a - 1) + 1)) (as_ a) ltac:(lia)) as HD. pose proof (Z.mod_pos_bound (q - (ad a * (ak a - 1) + 1)) (as_ a) ltac:(lia)) as HB.
        assert (HO : v <= (q - (ad a * (ak a - 1) + 1)) / as_ a) by lia. set (d := (q - (ad a * (ak a - 1) + 1)) / as_ a) in *. clearbody d.
        assert (0 <= v * as_ a + u * ad a - 0 < q) by nia. split; [lia|]. do 2 f_equal. lia. }
      destruct HIn as [-> ->]. reflexivity.
  Qed.

  (** Groups (lines 117-124): "running [groups] independent Convs side by side, each having access only to [in_channels // groups] input
      channels, and concatenating the results along the output channel dimension". *)
  Definition channels (from n : Z) (x : @tensor R) : @tensor R := {| tch := n; tsh := tsh x; tval := fun c i => tval x (from + c) i |}.
  Definition outputs (from n : Z) (w : @weight R) : @weight R := {| wout := n; win := win w; wsh := wsh w; wval := fun oc ic j => wval w (from + oc) ic j |}.
  Definition concat_of (n : Z) (zs : Z -> @tensor R) (z : @tensor R) : Prop :=
    forall oc o, 0 <= oc < tch z -> tval z oc o = tval (zs (oc / n)) (oc mod n) o.
  Theorem C90_groups : forall t m axes ci co g w b (x z : @tensor R),
    conv_call rO radd rmul (layer_of t m axes ci co g) w b x = Ok z ->
    let n := wout w / g in
    wout w = g * n /\ tch x = g * win w /\
    exists zs, concat_of n zs z /\ forall q, 0 <= q < g ->
      conv_call rO radd rmul (layer_of t m axes (win w) n 1) (outputs (q * n) n w) (option_map (fun f oc => f (q * n + oc)) b) (channels (q * win w) (win w) x) = Ok (zs q) /\
      tch (zs q) = n /\ tsh (zs q) = tsh z.
  Proof.
    intros t m axes ci co g w b x z Hc. cbv zeta. unfold conv_call in *. cbn [tsh channels pmode layer_of stride nsd dilation groups] in *.
    destruct (negb _); [discriminate|]. apply bind_ok in Hc as (ps & Hps & Hc).
    replace (conv_pads (layer_of t m axes (win w) (wout w / g) 1) (tsh x)) with (Ok ps : res _) by (symmetry; exact Hps).
    cbn [bind]. clear Hps.
    (** One call of [conv_gd]. *)
    assert (HG : forall (y z0 : @tensor R) s ps ld rd, conv_gd rO radd rmul y w s ps ld rd g = Ok z0 ->
      wout w = g * (wout w / g) /\ tch y = g * win w /\ 1 <= g /\ tch z0 = wout w /\
      forall q, conv_gd rO radd rmul (channels (q * win w) (win w) y) (outputs (q * (wout w / g)) (wout w / g) w) s ps ld rd 1 =
        Ok {| tch := wout w / g; tsh := tsh z0; tval := fun oc o =>
          sum rO radd (zrange (win w)) (fun ic => sum rO radd (box (wsh w)) (fun j =>
            rmul (wval w (q * (wout w / g) + oc) ic j) (ext rO (tsh y) ld (tval y (q * win w + (oc / (wout w / g / 1) * win w + ic))) (pos o s j rd ps)))) |} /\
        forall oc o, 0 <= oc < wout w / g -> tval z0 (q * (wout w / g) + oc) o =
          sum rO radd (zrange (win w)) (fun ic => sum rO radd (box (wsh w)) (fun j =>
            rmul (wval w (q * (wout w / g) + oc) ic j) (ext rO (tsh y) ld (tval y (q * win w + (oc / (wout w / g / 1) * win w + ic))) (pos o s j rd ps))))).
    { intros y z0 s ps0 ld rd H. unfold conv_gd in H |- *. cbn [tsh channels outputs wsh win wout wval tch tval] in *.
      destruct (negb (_ && _)); [discriminate|]. destruct (forallb (fun z => 1 <=? z) (g :: s ++ ld ++ rd)) eqn:F; cbn [negb] in H; [|discriminate].
      cbn [forallb] in F |- *. apply andb_true_iff in F as [F1 F2]. rewrite F2. cbn [Z.leb andb negb].
      destruct ((tch y mod g =? 0) && (tch y / g =? win w) && (wout w mod g =? 0))%bool eqn:F; cbn [negb] in H; [|discriminate].
      destruct (existsb _ _); [discriminate|]. injection H as <-. cbn [tch tsh tval].
      apply andb_true_iff in F as [F F5]. apply andb_true_iff in F as [F3 F4]. assert (Hg : 1 <= g) by lia.
      assert (E1 : wout w = g * (wout w / g)) by (apply Z.div_exact; lia). assert (E2 : tch y = g * win w) by (assert (tch y / g = win w) as <- by lia; apply Z.div_exact; lia).
      do 4 (split; [auto|]). intros q. rewrite Z.mod_1_r, Z.mod_1_r, Z.div_1_r, Z.eqb_refl, Z.eqb_refl. cbn [andb negb]. split; [rewrite Z.div_1_r; reflexivity|].
      intros oc o Hoc. apply sum_ext'. intros ic _. apply sum_ext'. intros j _. do 3 f_equal. rewrite Z.div_1_r.
      rewrite (Z.div_small oc) by auto. rewrite (Z.add_comm (q * _) oc), Z.div_add, (Z.div_small oc) by lia. lia. }
    assert (HZ : exists y z0 s ps0 ld rd, conv_gd rO radd rmul y w s ps0 ld rd g = Ok z0 /\ add_bias radd b z0 = z /\
      (forall c, tval y c = tval y c) /\ tch y = tch x /\
      forall q, match m with Zeros => conv_gd rO radd rmul (channels (q * win w) (win w) x) (outputs (q * (wout w / g)) (wout w / g) w) (map as_ axes) ps (repeat 1 (List.length axes)) (map ad axes) 1
        | _ => xp <- jpad m (channels (q * win w) (win w) x) ps ;; conv_gd rO radd rmul xp (outputs (q * (wout w / g)) (wout w / g) w) (map as_ axes) (repeat (0, 0) (List.length axes)) (repeat 1 (List.length axes)) (map ad axes) 1 end
        = conv_gd rO radd rmul (channels (q * win w) (win w) y) (outputs (q * (wout w / g)) (wout w / g) w) s ps0 ld rd 1).
    { apply bind_ok in Hc as (z0 & Hz & Hc). destruct (mode_zeros m) as [->|Hm].
      - exists x, z0, (map as_ axes), ps, (repeat 1 (List.length axes)), (map ad axes). split; [exact Hz|]. split; [congruence|]. auto.
      - assert (HJ : exists y, jpad m x ps = Ok y /\ conv_gd rO radd rmul y w (map as_ axes) (repeat (0, 0) (List.length axes)) (repeat 1 (List.length axes)) (map ad axes) g = Ok z0)
          by (destruct m; [congruence| | |]; apply bind_ok in Hz as (y & H1 & H2); eauto).
        destruct HJ as (y & HJ & Hy). exists y, z0, (map as_ axes), (repeat (0, 0) (List.length axes)), (repeat 1 (List.length axes)), (map ad axes).
        split; [exact Hy|]. split; [congruence|]. split; [auto|]. split; [apply jpad_inv in HJ; rewrite HJ; auto|]. intros q.
        assert (HJ' : jpad m (channels (q * win w) (win w) x) ps = Ok (channels (q * win w) (win w) y)).
        { pose proof (jpad_inv _ _ _ _ HJ) as Ey. unfold jpad in *. cbn [tsh channels tch tval]. destruct (negb _); [discriminate|]. destruct (existsb _ _); [discriminate|]. destruct (existsb _ _); [discriminate|].
          rewrite Ey. reflexivity. }
        rewrite HJ'. destruct m; [congruence| | |]; reflexivity. }
    destruct HZ as (y & z0 & s & ps0 & ld & rd & Hy & <- & _ & Hty & HQ). destruct (HG _ _ _ _ _ _ Hy) as (G1 & G2 & G3 & G4 & G5).
    split; [exact G1|]. split; [congruence|].
    exists (fun q => add_bias radd (option_map (fun f oc => f (q * (wout w / g) + oc)) b) {| tch := wout w / g; tsh := tsh z0; tval := fun oc o =>
          sum rO radd (zrange (win w)) (fun ic => sum rO radd (box (wsh w)) (fun j =>
            rmul (wval w (q * (wout w / g) + oc) ic j) (ext rO (tsh y) ld (tval y (q * win w + (oc / (wout w / g / 1) * win w + ic))) (pos o s j rd ps0)))) |}).
    split.
    - intros oc o Hoc. assert (Hoc' : 0 <= oc < wout w) by (destruct b; cbn [add_bias tch] in Hoc; lia). clear Hoc.
      assert (Hn : 1 <= wout w / g) by nia. pose proof (Z.div_mod oc (wout w / g) ltac:(lia)) as HD. pose proof (Z.mod_pos_bound oc (wout w / g) ltac:(lia)) as HB.
      destruct (G5 (oc / (wout w / g))) as [_ G6]. specialize (G6 _ o HB).
      assert (E : oc / (wout w / g) * (wout w / g) + oc mod (wout w / g) = oc) by lia.
      destruct b; cbn [option_map add_bias tval]; rewrite <- G6, E; reflexivity.
    - intros q Hq. destruct (G5 q) as [G6 _]. split.
      + specialize (HQ q). rewrite G6 in HQ. destruct m; rewrite HQ; reflexivity.
      + destruct b; cbn [option_map add_bias tch tsh]; auto.
  Qed.

  (** Which inputs are accepted. The image may have any shape of the right rank; the kernel any of that rank. *)
  Definition can_pad (m : mode) (p : Z * Z) (n : Z) : Prop :=
    match m with Zeros => 0 <= n + fst p + snd p | _ => 0 <= fst p /\ 0 <= snd p /\ (n = 0 -> fst p = 0 /\ snd p = 0) end.
  Lemma existsb_zip_map {A B C} (h : B -> C -> bool) (f : A -> B) (g : A -> C) l :
    existsb (fun b => b) (zip h (map f l) (map g l)) = existsb (fun a => h (f a) (g a)) l.
  Proof. clear rO radd rmul. induction l as [|a l IH]; cbn [map zip existsb]; auto. rewrite IH. auto. Qed.
  Lemma zip_maps {A B C D} (h : B -> C -> D) (f : A -> B) (g : A -> C) l : zip h (map f l) (map g l) = map (fun a => h (f a) (g a)) l.
  Proof. clear rO radd rmul. induction l as [|a l IH]; cbn [map zip]; auto. rewrite IH. auto. Qed.
  Lemma existsb_map' {A B} (h : B -> bool) (f : A -> B) l : existsb h (map f l) = existsb (fun a => h (f a)) l.
  Proof. clear rO radd rmul. induction l as [|a l IH]; cbn [map existsb]; auto. rewrite IH. auto. Qed.
  Lemma existsb_none {A} (h : A -> bool) (P : A -> Prop) l : (forall a, In a l -> h a = false <-> P a) -> existsb h l = false <-> Forall P l.
  Proof.
    clear rO radd rmul. induction l as [|a l IH]; intros H; cbn [existsb]; [split; auto|].
    specialize (IH (fun x Hx => H x (or_intror Hx))). specialize (H a (or_introl eq_refl)).
    rewrite orb_false_iff, IH, H. split; [intros [H1 H2]; constructor; auto|intros H1; inversion H1; auto].
  Qed.
  Lemma gd_accepts (y : @tensor R) w axes (pd : axis -> Z * Z) g (f : axis -> Z) : Forall ok_axis axes -> tsh y = map f axes -> Forall (fun a => 0 <= f a) axes ->
    (exists z, conv_gd rO radd rmul y w (map as_ axes) (map pd axes) (repeat 1 (List.length axes)) (map ad axes) g = Ok z) <->
    List.length (wsh w) = List.length axes /\ 1 <= g /\ tch y = g * win w /\ (g | wout w) /\ Forall (fun a => 0 <= f a + fst (pd a) + snd (pd a)) axes.
  Proof.
    intros Hok Hy Hf. rewrite Forall_forall in Hf. unfold conv_gd. rewrite Hy, !map_length, repeat_length, repeat_map, !Nat.eqb_refl, !andb_true_r. rewrite zip_maps, zip_maps, existsb_map'.
    destruct (Nat.eqb_spec (List.length (wsh w)) (List.length axes)) as [E|E]; cbn [negb].
    2: { split; [intros [z H]; discriminate|intros [H _]; congruence]. }
    replace (forallb (fun z => 1 <=? z) (g :: map as_ axes ++ map (fun _ => 1) axes ++ map ad axes)) with (1 <=? g).
    2: { cbn [forallb]. replace (forallb _ (map as_ axes ++ _)) with true; [rewrite andb_true_r; auto|]. symmetry. rewrite forallb_forall. intros v Hv. rewrite Forall_forall in Hok.
         rewrite !in_app_iff, !in_map_iff in Hv. destruct Hv as [(a & <- & Ha)|[(a & <- & Ha)|(a & <- & Ha)]]; try (apply Hok in Ha as (H1 & H2 & H3 & H4)); apply Z.leb_le; lia. }
    destruct (Z.leb_spec 1 g) as [Hg|Hg]; cbn [negb].
    2: { split; [intros [z H]; discriminate|intros (_ & H & _); lia]. }
    destruct ((tch y mod g =? 0) && (tch y / g =? win w) && (wout w mod g =? 0)) eqn:E1; cbn [negb].
    2: { split; [intros [z H]; discriminate|intros (_ & _ & H1 & H2 & _)]. exfalso. rewrite H1, Z.mul_comm, Z.mod_mul, Z.div_mul in E1 by lia.
         apply Z.mod_divide in H2; [|lia]. rewrite H2, !Z.eqb_refl in E1. discriminate. }
    rewrite !andb_true_iff, !Z.eqb_eq in E1. destruct E1 as [[E1 E2] E3].
    assert (EX : existsb (fun a => dil (f a) 1 + fst (pd a) + snd (pd a) <? 0) axes = false <-> Forall (fun a => 0 <= f a + fst (pd a) + snd (pd a)) axes).
    { apply existsb_none. intros a Ha. apply Hf in Ha. rewrite dil1 by auto. rewrite Z.ltb_ge. reflexivity. }
    destruct (existsb _ _).
    - split; [intros [z H]; discriminate|intros (_ & _ & _ & _ & H)]. apply EX in H. discriminate.
    - split; [intros _|intros _; eexists; reflexivity]. split; [auto|]. split; [auto|]. split; [rewrite <- E2; apply Z.div_exact; lia|].
      split; [apply Z.mod_divide; lia|apply EX; auto].
  Qed.
  Theorem C90_accepts : forall t m axes ci co g w b (x : @tensor R), Forall ok_axis axes -> tsh x = map am axes ->
    (exists z, conv_call rO radd rmul (layer_of t m axes ci co g) w b x = Ok z) <->
    List.length (wsh w) = List.length axes /\ 1 <= g /\ tch x = g * win w /\ (g | wout w) /\ Forall (fun a => can_pad m (cpad t a) (am a)) axes.
  Proof.
    intros t m axes ci co g w b x Hok Hx. unfold conv_call. cbn [pmode layer_of stride nsd dilation groups].
    rewrite Hx, map_length, Nat.eqb_refl. cbn [negb]. rewrite conv_pads_of by auto. cbn [bind].
    assert (HB : forall r : res tensor, (exists z, bind r (fun y => Ok (add_bias radd b y)) = Ok z) <-> exists z, r = Ok z).
    { intros [z|e]; cbn [bind]; split; intros [z0 H]; try discriminate; eauto. }
    rewrite HB. clear HB. destruct (mode_zeros m) as [->|Hm].
    - rewrite (gd_accepts x w axes (cpad t) g am Hok Hx); [reflexivity|]. eapply Forall_impl; [|exact Hok]. intros a [H1 _]. exact H1.
    - enough (HP : (exists z, bind (jpad m x (map (cpad t) axes)) (fun xp => conv_gd rO radd rmul xp w (map as_ axes) (map (fun _ => (0, 0)) axes) (repeat 1 (List.length axes)) (map ad axes) g) = Ok z) <->
        List.length (wsh w) = List.length axes /\ 1 <= g /\ tch x = g * win w /\ (g | wout w) /\ Forall (fun a => can_pad m (cpad t a) (am a)) axes).
      { rewrite <- (repeat_map' axes (0, 0)) in HP. destruct m; [congruence|exact HP|exact HP|exact HP]. }
      unfold jpad. rewrite Hx, !map_length, Nat.eqb_refl. cbn [negb]. rewrite existsb_map', existsb_zip_map, zip_maps.
      assert (E1 : existsb (fun a => (fst (cpad t a) <? 0) || (snd (cpad t a) <? 0)) axes = false <-> Forall (fun a => 0 <= fst (cpad t a) /\ 0 <= snd (cpad t a)) axes).
      { apply existsb_none. intros a _. rewrite orb_false_iff, !Z.ltb_ge. reflexivity. }
      destruct (existsb (fun a => (fst (cpad t a) <? 0) || (snd (cpad t a) <? 0)) axes).
      { split; [intros [z H]; discriminate|intros (_ & _ & _ & _ & H)]. assert (true = false); [apply E1|discriminate].
        eapply Forall_impl; [|exact H]. intros a Ha. destruct m; [congruence| | |]; cbn [can_pad] in Ha; tauto. }
      pose proof (proj1 E1 eq_refl) as P1. clear E1.
      assert (E2 : existsb (fun a => (am a =? 0) && (0 <? fst (cpad t a) + snd (cpad t a))) axes = false <-> Forall (fun a => can_pad m (cpad t a) (am a)) axes).
      { apply existsb_none. intros a Ha. rewrite Forall_forall in P1. apply P1 in Ha as [P2 P3]. rewrite andb_false_iff, Z.eqb_neq, Z.ltb_ge.
        destruct m; [congruence| | |]; cbn [can_pad]; (split; [intros H; do 2 (split; [auto|]); intros; lia|intros (_ & _ & H); destruct (Z.eq_dec (am a) 0); [right; destruct (H e); lia|left; auto]]). }
      destruct (existsb (fun a => (am a =? 0) && (0 <? fst (cpad t a) + snd (cpad t a))) axes).
      { split; [intros [z H]; discriminate|intros (_ & _ & _ & _ & H)]. apply E2 in H. discriminate. }
      pose proof (proj1 E2 eq_refl) as P2. cbn [bind].
      rewrite (gd_accepts {| tch := tch x; tsh := map (fun a => am a + fst (cpad t a) + snd (cpad t a)) axes; tval := fun c i => tval x c (pad_indices m (map am axes) (map (cpad t) axes) i) |} w axes (fun _ => (0, 0)) g (fun a => am a + fst (cpad t a) + snd (cpad t a)) Hok eq_refl).
      2: { rewrite Forall_forall in *. intros a Ha. destruct (Hok a Ha) as [H1 _]. destruct (P1 a Ha). lia. }
      cbn [tch fst snd].
      split; [intros (Q1 & Q2 & Q3 & Q4 & Q5)|intros (Q1 & Q2 & Q3 & Q4 & Q5)]; do 4 (split; [auto|]); auto.
      rewrite Forall_forall in *. intros a Ha. destruct (Hok a Ha) as [H1 _]. destruct (P1 a Ha). lia.
  Qed.
  Theorem C90_rank : forall l w b (x : @tensor R), List.length (tsh x) <> nsd l -> conv_call rO radd rmul l w b x = Err ValueError.
  Proof. intros l w b x H. unfold conv_call. destruct (Nat.eqb_spec (List.length (tsh x)) (nsd l)); [congruence|reflexivity]. Qed.

  (** 'VALID' "is the same as zero padding". *)
  Theorem C90_valid : forall m axes ci co g w b (x : @tensor R), tsh x = map am axes ->
    let zero_pads := map (fun a => {| am := am a; ak := ak a; as_ := as_ a; ad := ad a; ao := ao a; ap0 := 0; ap1 := 0 |}) axes in
    conv_call rO radd rmul (layer_of KValid m axes ci co g) w b x = conv_call rO radd rmul (layer_of KExplicit m zero_pads ci co g) w b x.
  Proof.
    intros m axes ci co g w b x Hx. cbv zeta. unfold conv_call. cbn [tsh pmode layer_of stride nsd dilation groups]. rewrite !map_map, map_length. cbn [as_ ad].
    destruct (negb _); [auto|].
    assert (E : forall c k, conv_pads (layer_of KValid m axes c k g) (tsh x) = conv_pads (layer_of KExplicit m (map (fun a => {| am := am a; ak := ak a; as_ := as_ a; ad := ad a; ao := ao a; ap0 := 0; ap1 := 0 |}) axes) c k g) (tsh x)).
    { intros c k. unfold conv_pads. cbn [padding layer_of pads_of]. rewrite map_map. cbn [ap0 ap1]. rewrite Hx, map_map.
      replace (all_some (map (fun _ : axis => Some (0, 0)) axes)) with (Some (map (fun _ : axis => (0, 0)) axes)); [auto|].
      clear. induction axes as [|a l IH]; cbn [map all_some]; auto. rewrite <- IH. auto. }
    rewrite E. reflexivity.
  Qed.

  (** With circular padding, stride 1 and 'SAME', convolution commutes with cyclic shifts of the image. *)
  Definition shifted (h : list Z) (x x' : @tensor R) : Prop :=
    tch x' = tch x /\ tsh x' = tsh x /\ forall c i, In i (box (tsh x)) -> tval x' c i = tval x c (zip Z.modulo (zip Z.add i h) (tsh x)).
  Lemma add_app l1 l2 h1 h2 : List.length l1 = List.length h1 -> zip Z.add (l1 ++ l2) (h1 ++ h2) = zip Z.add l1 h1 ++ zip Z.add l2 h2.
  Proof. revert h1. induction l1 as [|a l1 IH]; intros [|b h1] H; cbn [List.length app zip] in *; try lia; auto. rewrite IH by lia. auto. Qed.
  Lemma zip_len {A B C} (f : A -> B -> C) l : forall l', List.length l = List.length l' -> List.length (zip f l l') = List.length l.
  Proof. clear rO radd rmul. induction l as [|a l IH]; intros [|b l'] H; cbn [List.length zip] in *; try lia. rewrite IH; lia. Qed.
  Lemma split_len {A} (h : list A) n1 n2 : List.length h = (n1 + Datatypes.S n2)%nat -> exists h1 a h2, h = h1 ++ a :: h2 /\ List.length h1 = n1 /\ List.length h2 = n2.
  Proof.
    clear rO radd rmul. revert h. induction n1 as [|n1 IH]; intros [|a h] H; cbn [List.length] in *; try lia.
    - exists [], a, h. cbn. repeat split; lia.
    - destruct (IH h ltac:(lia)) as (h1 & b & h2 & -> & E1 & E2). exists (a :: h1), b, h2. cbn. repeat split; lia.
  Qed.
  Theorem C90_shift : forall t axes ci co g w b (x x' z : @tensor R) h, is_same t = true -> Forall ok_axis axes -> Forall (fun a => 1 <= am a /\ as_ a = 1) axes ->
    wsh w = map ak axes -> tsh x = map am axes -> List.length h = List.length axes -> shifted h x x' ->
    conv_call rO radd rmul (layer_of t Circular axes ci co g) w b x = Ok z ->
    exists z', conv_call rO radd rmul (layer_of t Circular axes ci co g) w b x' = Ok z' /\ tsh z = tsh x /\ shifted h z z'.
  Proof.
    intros t axes ci co g w b x x' z h Ht Hok Hs Hw Hx Hh (S1 & S2 & S3) Hc.
    assert (HF : Forall (fun n => 1 <= n) (map am axes)) by (clear -Hs; induction Hs as [|a l [H _] Hs IH]; constructor; auto).
    destruct (C90_extension rO Circular (map am axes) (tval x) (or_intror HF)) as [[E HE] _].
    assert (HPer : forall c i i', List.length i = List.length axes -> List.length i' = List.length axes -> zip Z.modulo i (map am axes) = zip Z.modulo i' (map am axes) -> E c i = E c i').
    { intros c i i' Hi Hi' HM. rewrite (ext_in_box rO Circular _ _ E c i HE), (ext_in_box rO Circular _ _ E c i' HE) by (auto; try discriminate; rewrite map_length; auto).
      f_equal. assert (HZ : forall i, zip (pad_index Circular) (map am axes) i = zip Z.modulo i (map am axes)).
      { clear. induction (map am axes) as [|n ns IH]; intros [|v i]; cbn [zip]; auto. rewrite IH. auto. }
      rewrite !HZ. auto. }
    assert (HE' : extension rO Circular (map am axes) (tval x') (fun c i => E c (zip Z.add i h))).
    { split.
      - intros c i Hi. rewrite S3 by (rewrite Hx; auto). rewrite Hx. pose proof (box_len _ _ Hi) as Li. rewrite map_length in Li.
        assert (Hb : In (zip Z.modulo (zip Z.add i h) (map am axes)) (box (map am axes))).
        { apply box_in. clear -HF Li Hh. revert i h Li Hh. induction axes as [|a l IH]; intros [|v i] [|u h] Li Hh; cbn [List.length map zip in_box] in *; try lia; auto.
          inversion HF; subst. rewrite IH by (auto; lia). pose proof (Z.mod_pos_bound (v + u) (am a) ltac:(lia)). lia. }
        destruct HE as [HE1 _]. rewrite <- (HE1 c _ Hb). apply HPer.
        + rewrite zip_len; congruence.
        + apply box_len in Hb. rewrite map_length in Hb. auto.
        + clear -HF. revert i h. induction axes as [|a l IH]; intros [|v i] [|u h]; cbn [map zip]; auto. inversion HF; subst. rewrite <- IH by auto. f_equal.
          rewrite Z.mod_mod by lia. auto.
      - intros c ns1 n ns2 l1 v l2 Hns L1 L2. cbv zeta. assert (LA : List.length axes = (List.length ns1 + Datatypes.S (List.length ns2))%nat) by (rewrite <- (map_length am axes), Hns, app_length; reflexivity).
        destruct (split_len h (List.length ns1) (List.length ns2)) as (h1 & u & h2 & -> & E1 & E2); [congruence|].
        rewrite !add_app by congruence. cbn [zip]. replace (v + n + u) with (v + u + n) by lia. destruct HE as [_ HE].
        apply (HE c ns1 n ns2 (zip Z.add l1 h1) (v + u) (zip Z.add l2 h2) Hns); rewrite zip_len; congruence. }
    (** The call on the shifted input succeeds. *)
    assert (HS : exists z', conv_call rO radd rmul (layer_of t Circular axes ci co g) w b x' = Ok z').
    { unfold conv_call in *. cbn [pmode layer_of stride nsd dilation groups] in *. rewrite S2. destruct (negb _); [discriminate|]. apply bind_ok in Hc as (ps & Hps & Hc).
      rewrite Hps. cbn [bind]. unfold jpad in *. rewrite S2. destruct (negb _); [discriminate|]. destruct (existsb _ _); [discriminate|]. destruct (existsb _ _); [discriminate|].
      cbn [bind] in Hc |- *. unfold conv_gd in *. cbn [tsh tch] in *. rewrite S1. destruct (negb _); [discriminate|]. destruct (negb _); [discriminate|].
      destruct (negb _); [discriminate|]. destruct (existsb _ _); [discriminate|]. cbn [bind]. eauto. }
    destruct HS as [z' Hc']. exists z'. split; [auto|].
    destruct (C90_value t Circular axes ci co g w b x z E Hok Hw Hx HE Hc) as (_ & V1 & V2 & V3).
    destruct (C90_value t Circular axes ci co g w b x' z' _ Hok Hw ltac:(congruence) HE' Hc') as (_ & W1 & W2 & W3).
    assert (HL : map (fun a => out_len (cpad t a) a) axes = map am axes).
    { clear -Ht Hok Hs. induction Hok as [|a l Ha Hok IH]; cbn [map]; auto. inversion Hs as [|? ? [H1 H2] Hs']; subst. rewrite IH by auto. f_equal.
      pose proof (csize_same t a Ht Ha H1) as HC. unfold csize, out_size in HC. destruct Ha as (H3 & H4 & H5 & H6). rewrite dil_win, dil1 in HC by auto. unfold win_size in HC.
      unfold out_len. rewrite HC, H2, Z.div_1_r. lia. }
    rewrite HL in V2, W2. split; [congruence|]. split; [congruence|]. split; [congruence|].
    intros oc o Ho. rewrite V2 in Ho |- *. rewrite W3 by (rewrite W2; auto). pose proof (box_len _ _ Ho) as Lo. rewrite map_length in Lo.
    assert (Hb : In (zip Z.modulo (zip Z.add o h) (map am axes)) (box (map am axes))).
    { apply box_in. clear -HF Lo Hh. revert o h Lo Hh. induction axes as [|a l IH]; intros [|v i] [|u h] Li Hh; cbn [List.length map zip in_box] in *; try lia; auto.
      inversion HF; subst. rewrite IH by (auto; lia). pose proof (Z.mod_pos_bound (v + u) (am a) ltac:(lia)). lia. }
    rewrite V3 by (rewrite V2; auto). unfold correlation.
    assert (HT : forall ic j, In j (box (map ak axes)) ->
      E (oc / (wout w / g) * win w + ic) (zip Z.add (place (fun a => fst (cpad t a)) axes o j) h) =
      E (oc / (wout w / g) * win w + ic) (place (fun a => fst (cpad t a)) axes (zip Z.modulo (zip Z.add o h) (map am axes)) j)).
    { intros ic j Hj. pose proof (box_len _ _ Hj) as Lj. rewrite map_length in Lj. pose proof (box_len _ _ Hb) as Lb. rewrite map_length in Lb. apply HPer.
      - rewrite zip_len; rewrite place_len; auto.
      - rewrite place_len; auto.
      - clear -HF Hs Lo Lj Hh. revert o h j Lo Hh Lj. induction axes as [|a l IH]; intros [|v o] [|u h] [|k j] Lo Hh Lj; cbn [List.length map zip place] in *; try lia; auto.
        inversion HF; inversion Hs as [|? ? [_ H1s]]; subst. rewrite IH by (auto; lia). f_equal. rewrite H1s.
        replace (v * 1 + k * ad a - fst (cpad t a) + u) with ((v + u) + (k * ad a - fst (cpad t a))) by lia.
        replace ((v + u) mod am a * 1 + k * ad a - fst (cpad t a)) with ((v + u) mod am a + (k * ad a - fst (cpad t a))) by lia. rewrite Zplus_mod_idemp_l. auto. }
    destruct b as [f|]; [f_equal|]; rewrite !total_sum; apply sum_ext'; intros ic _; apply sum_ext'; intros j Hj; f_equal; apply HT; auto.
  Qed.
End Value.
Print Assumptions C90_value.
Print Assumptions C90_groups.
Print Assumptions C90_accepts.
Print Assumptions C90_rank.
Print Assumptions C90_valid.
Print Assumptions C90_shift.

(** 'SAME' and 'SAME_LOWER' (lines 149-154): the outputs are one per [stride] inputs, so of the same size for stride 1; "the padding is split between
    the two sides equally or almost equally", an odd one having more at the end, or at the beginning; and it is no larger than necessary. *)
Theorem C90_same : forall t a, is_same t = true -> ok_axis a -> 1 <= am a ->
  let '(p0, p1) := cpad t a in
  out_len (p0, p1) a * as_ a - as_ a < am a <= out_len (p0, p1) a * as_ a /\ (as_ a = 1 -> out_len (p0, p1) a = am a) /\
  0 <= p0 /\ 0 <= p1 /\ (t = KSame -> p0 <= p1 <= p0 + 1) /\ (t = KSameLower -> p1 <= p0 <= p1 + 1) /\
  forall q0 q1, 0 <= q0 -> 0 <= q1 -> out_len (p0, p1) a <= out_len (q0, q1) a -> p0 + p1 <= q0 + q1.
Proof.
  intros t a Ht Ha Hm. pose proof (csize_same t a Ht Ha Hm) as HC. pose proof (cpad_sum t a Ht) as HS. destruct (cpad_pos t a Ht) as [P0 P1].
  destruct (cpad t a) as [p0 p1] eqn:E. cbn [fst snd] in *. pose proof Ha as (H1 & H2 & H3 & H4).
  assert (HO : out_len (p0, p1) a = - (- am a / as_ a)).
  { rewrite <- HC. unfold out_len, csize, out_size. rewrite E, dil_win, dil1 by auto. reflexivity. }
  pose proof (ceil_bounds (am a) (as_ a) H3) as HB. rewrite HO. split; [lia|]. split; [intros ->; rewrite Z.div_1_r; lia|]. split; [auto|]. split; [auto|].
  assert (HH : (t = KSame -> p0 <= p1 <= p0 + 1) /\ (t = KSameLower -> p1 <= p0 <= p1 + 1)).
  { split; intros ->; cbn [cpad] in E; unfold same_pads in E; injection E as <- <-;
    match goal with |- context [?q / 2] => pose proof (Z.div_mod q 2 ltac:(lia)); pose proof (Z.mod_pos_bound q 2 ltac:(lia)) end; lia. }
  split; [apply HH|]. split; [apply HH|]. intros q0 q1 Q0 Q1 HQ. unfold out_len in HQ. cbn [fst snd] in HQ. unfold win_size in HS.
  set (n := - (- am a / as_ a)) in *. assert (Hn : 1 <= n) by nia. rewrite Z.max_r in HQ by (destruct (Z.max_spec 0 ((am a + q0 + q1 - (ad a * (ak a - 1) + 1)) / as_ a + 1)); lia).
  pose proof (Z.mul_div_le (am a + q0 + q1 - (ad a * (ak a - 1) + 1)) (as_ a) ltac:(lia)) as HD. nia.
Qed.
Print Assumptions C90_same.
(** "This will apply padding to produce an output with the same size spatial dimensions as the input" is false with strides. *)
Theorem C90_same_size_refuted : exists a, ok_axis a /\ 1 <= am a /\ out_len (cpad KSame a) a <> am a.
Proof.
  exists {| am := 5; ak := 3; as_ := 2; ad := 1; ao := 0; ap0 := 0; ap1 := 0 |}. split; [repeat split; cbn; lia|]. split; [cbn; lia|]. vm_compute. discriminate.
Qed.
Print Assumptions C90_same_size_refuted.

(** The documented pictures, and a grouped convolution of a circular image. *)
Definition ex_row : @tensor Z := {| tch := 1; tsh := [4]; tval := fun _ i => hd 0 i + 1 |}.
Definition id_w : @weight Z := {| wout := 1; win := 1; wsh := [1]; wval := fun _ _ _ => 1 |}.
Definition row_axis : axis := {| am := 4; ak := 1; as_ := 1; ad := 1; ao := 0; ap0 := 2; ap1 := 2 |}.
Definition shown (m : mode) : res (list Z) :=
  z <- conv_call 0 Z.add Z.mul (layer_of KExplicit m [row_axis] 1 1 1) id_w None ex_row ;; Ok (map (tval z 0) (box (tsh z))).
Example C90_ex_pictures : shown Zeros = Ok [0; 0; 1; 2; 3; 4; 0; 0] /\ shown Reflect = Ok [3; 2; 1; 2; 3; 4; 3; 2] /\
  shown Replicate = Ok [1; 1; 1; 2; 3; 4; 4; 4] /\ shown Circular = Ok [3; 4; 1; 2; 3; 4; 1; 2].
Proof. repeat split. Qed.
Definition ex_img : @tensor Z := {| tch := 2; tsh := [2; 3]; tval := fun c i => match i with [a; b] => 10 * c + 3 * a + b | _ => 0 end |}.
Definition ex_gw : @weight Z := {| wout := 4; win := 1; wsh := [1; 2]; wval := fun oc _ j => match j with [_; k] => if k =? 0 then oc + 1 else -1 | _ => 0 end |}.
Definition img_axes : list axis :=
  [{| am := 2; ak := 1; as_ := 1; ad := 1; ao := 0; ap0 := 0; ap1 := 0 |}; {| am := 3; ak := 2; as_ := 1; ad := 1; ao := 0; ap0 := 0; ap1 := 0 |}].
Example C90_ex : exists z, conv_call 0 Z.add Z.mul (layer_of KSame Circular img_axes 2 4 2) ex_gw (Some (fun oc => 100 * oc)) ex_img = Ok z /\
  tsh z = [2; 3] /\ map (tval z 0) (box [2; 3]) = [-1; -1; 2; -1; -1; 2] /\ map (tval z 3) (box [2; 3]) = [329; 332; 338; 338; 341; 347].
Proof. eexists. split; [reflexivity|]. vm_compute. auto. Qed.
