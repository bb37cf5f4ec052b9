(** C100: what [ConvTranspose] computes: equinox/nn/_conv.py lines 353-620 (model: Conv_Model, [convt_call]). *)
From Verif Require Import Conv_Proofs2.
From Verif Require Export ConvValue_Props.
Local Open Scope Z_scope.
Local Open Scope list_scope.

(** How far the result is cut off at the beginning of an axis. *)
Definition cut (t : kind) (a : axis) : Z :=
  let surplus := Z.max 0 (ad a * (ak a - 1) + 1 - as_ a + ao a) in
  match t with KSame => surplus / 2 | KSameLower => (surplus + 1) / 2 | KValid => 0 | KExplicit => ap0 a end.
(** And at the end; [output_padding] extends it there. *)
Definition cut_end (t : kind) (a : axis) : Z :=
  match t with
  | KSame | KSameLower => ad a * (ak a - 1) + 1 - as_ a + ao a - cut t a
  | KValid => - ao a
  | KExplicit => ap1 a - ao a
  end.
(** The outputs for [am a] inputs. *)
Definition spread_len (t : kind) (a : axis) : Z := Z.max 0 ((am a - 1) * as_ a + (ad a * (ak a - 1) + 1) - cut t a - cut_end t a).
(** The kernel is mirrored. *)
Fixpoint mirrored (axes : list axis) (j : list Z) : list Z :=
  match axes, j with a :: axes, j0 :: j => ak a - 1 - j0 :: mirrored axes j | _, _ => [] end.
(** Entry [j] of the kernel placed at the input [i] lies over the output [o]; when circular, the outputs for [n] inputs and stride [s] repeat after [n * s]. *)
Definition over (m : mode) (a : axis) (u o : Z) : bool :=
  match m with Circular => (u - o) mod (am a * as_ a) =? 0 | _ => u =? o end.
Fixpoint lands (m : mode) (axes : list axis) (us o : list Z) : bool :=
  match axes, us, o with
  | a :: axes, u :: us, o0 :: o => over m a u o0 && lands m axes us o
  | _, _, _ => true
  end.

Lemma cut_tpad t a : fst (tpad t a) = ad a * (ak a - 1) - cut t a.
Proof.
  destruct t; unfold cut; cbn [tpad explicit_t fst]; auto; unfold same_t; cbn [fst];
    destruct (Z.ltb_spec (ad a * (ak a - 1) - as_ a + ao a + 1) 0);
    (replace (Z.max 0 (ad a * (ak a - 1) + 1 - as_ a + ao a)) with (Z.max 0 (ad a * (ak a - 1) - as_ a + ao a + 1)) by (f_equal; lia));
    rewrite ?Z.max_l, ?Z.max_r by lia; auto; rewrite ?Z.add_0_r; auto.
Qed.
Lemma cut_end_tpad t a : snd (tpad t a) = ad a * (ak a - 1) - cut_end t a.
Proof.
  destruct t; cbn [cut_end]; try (cbn [tpad explicit_t fst snd]; lia);
    (pose proof (cut_tpad KSame a) as C1; pose proof (cut_tpad KSameLower a) as C2; pose proof (tpad_sum KSame a eq_refl) as S1; pose proof (tpad_sum KSameLower a eq_refl) as S2; lia).
Qed.
Lemma mirrored_flip axes j : mirrored axes j = flip_index (map ak axes) j.
Proof. revert j. unfold flip_index. induction axes as [|a l IH]; intros [|x j]; cbn [mirrored map zip]; auto. rewrite IH. auto. Qed.

Lemma over_circ s n q0 q1 D e o i : 1 <= s -> 0 <= i < n -> 0 <= q0 / s -> 0 <= q1 / s -> 0 <= e <= D ->
  0 <= o < (n + q0 / s + q1 / s - 1) * s + 1 + q0 mod s + q1 mod s - (D + 1) + 1 ->
  let u := o + (D - e) - q0 mod s in
  (i * s + e - (D - q0) - o) mod (n * s) = 0 <-> u mod s = 0 /\ 0 <= u / s < n + q0 / s + q1 / s /\ i = (u / s - q0 / s) mod n.
Proof.
  intros Hs Hi Hq0 Hq1 He Ho u. set (v := o + (D - e) - q0).
  pose proof (Z.div_mod q0 s ltac:(lia)) as D0. pose proof (Z.mod_pos_bound q0 s ltac:(lia)) as B0. pose proof (Z.mod_pos_bound q1 s ltac:(lia)) as B1.
  assert (Eu : u = v + (q0 / s) * s) by (unfold u, v; lia). rewrite Eu, Z.mod_add, Z.div_add by lia.
  assert (HR : v mod s = 0 -> 0 <= v / s + q0 / s < n + q0 / s + q1 / s).
  { intros Hv. pose proof (Z.div_mod v s ltac:(lia)) as Dv. rewrite Hv in Dv.
    set (c := v / s) in *. set (b0 := q0 / s) in *. set (b1 := q1 / s) in *. assert (E : (c + b0) * s = o + (D - e) - q0 mod s) by (unfold u in Eu; nia).
    split; [nia|]. enough ((c + b0) * s < (n + b0 + b1) * s) by nia. rewrite E. nia. }
  replace (i * s + e - (D - q0) - o) with (i * s - v) by (unfold v; lia). clear Eu.
  replace (v / s + q0 / s - q0 / s) with (v / s) by lia. split.
  - intros H. apply Z.mod_divide in H; [|nia]. destruct H as [c H].
    assert (Ev : v = (i - c * n) * s) by lia. assert (Hm : v mod s = 0) by (rewrite Ev; apply Z.mod_mul; lia). split; [auto|]. split; [auto|].
    rewrite Ev, Z.div_mul by lia. replace (i - c * n) with (i + (- c) * n) by lia. rewrite Z.mod_add, Z.mod_small; lia.
  - intros (Hm & _ & Hv). apply Z.mod_divide; [nia|]. exists (- (v / s / n)). pose proof (Z.div_mod v s ltac:(lia)) as Dv. rewrite Hm in Dv.
    pose proof (Z.div_mod (v / s) n ltac:(lia)) as Dn. set (c := v / s) in *. nia.
Qed.

Section Ring.
  Context {R : Type} (rO rI : R) (radd rmul : R -> R -> R) (Rth : semi_ring_theory rO rI radd rmul eq).
  Add Ring Rring : Rth.
  Notation total := (total rO radd).

  (** Every input is spread over the outputs by the mirrored kernel. *)
  Definition spread (m : mode) (t : kind) (w : weight) (b : option (Z -> R)) (g : Z) (axes : list axis) (x : @tensor R) (oc : Z) (o : list Z) : R :=
    let y := total (Z.to_nat (win w)) (fun ic => sum rO radd (box (map am axes)) (fun i => sum rO radd (box (map ak axes)) (fun j =>
               if lands m axes (place (cut t) axes i j) o
               then rmul (wval w oc ic (mirrored axes j)) (tval x (oc / (wout w / g) * win w + ic) i) else rO))) in
    match b with Some b => radd y (b oc) | None => y end.

  (** One input channel. *)
  Lemma spread_zeros t m axes F o j : Forall ok_axis axes -> m <> Circular -> List.length o = List.length axes -> In j (box (map ak axes)) ->
    ext rO (map am axes) (map as_ axes) F (pos o (map (fun _ => 1) axes) (flip_index (map ak axes) j) (map ad axes) (map (tpad t) axes)) =
    sum rO radd (box (map am axes)) (fun i => if lands m axes (place (cut t) axes i j) o then F i else rO).
  Proof.
    intros Hok Hm Lo Hj. pose proof (box_len _ _ Hj) as Lj. rewrite map_length in Lj.
    assert (Lf : List.length (flip_index (map ak axes) j) = List.length axes) by (apply flip_flip in Hj as [_ Hj]; apply box_len in Hj; rewrite map_length in Hj; auto).
    rewrite (ext_sum rO rI radd rmul Rth) by first [apply pos_len; rewrite ?map_length; auto; fail | eapply Forall_impl; [|exact Hok]; intros a Ha; apply Ha].
    apply sum_ext'. intros i Hi. pose proof (box_len _ _ Hi) as Li. rewrite map_length in Li.
    match goal with |- (if ?b then _ else _) = (if ?c then _ else _) => replace c with b; [auto|] end.
    clear -Hm Lo Lj Li. revert i j o Li Lj Lo. induction axes as [|a l IH]; intros [|x i] [|y j] [|v o] Li Lj Lo; cbn [List.length] in *; try lia; auto.
    unfold flip_index in *. cbn [map zip pos place lands]. rewrite veq_cons, IH by lia. f_equal. rewrite cut_tpad.
    destruct m; try congruence; cbn [over]; destruct (Z.eqb_spec (x * as_ a) (v * 1 + (ak a - 1 - y) * ad a - (ad a * (ak a - 1) - cut t a)));
      destruct (Z.eqb_spec (x * as_ a + y * ad a - cut t a) v); auto; exfalso; lia.
  Qed.
  Lemma spread_circ t axes F o j : Forall ok_axis axes ->
    Forall (fun a => 0 <= fst (sdiv t a) /\ 0 <= snd (sdiv t a) /\ (am a = 0 -> fst (sdiv t a) = 0 /\ snd (sdiv t a) = 0)) axes ->
    in_box (map (fun a => out_size (am a + fst (sdiv t a) + snd (sdiv t a)) (fst (smod t a)) (snd (smod t a)) (ak a) 1 (as_ a) (ad a)) axes) o = true -> In j (box (map ak axes)) ->
    ext rO (map (fun a => am a + fst (sdiv t a) + snd (sdiv t a)) axes) (map as_ axes) (fun i => F (pad_indices Circular (map am axes) (map (sdiv t) axes) i))
      (pos o (map (fun _ => 1) axes) (flip_index (map ak axes) j) (map ad axes) (map (smod t) axes)) =
    sum rO radd (box (map am axes)) (fun i => if lands Circular axes (place (cut t) axes i j) o then F i else rO).
  Proof.
    intros Hok Hp Ho Hj. apply box_in in Hj. unfold ext. symmetry.
    set (P := pos o (map (fun _ => 1) axes) (flip_index (map ak axes) j) (map ad axes) (map (smod t) axes)).
    rewrite (sum_sel rO rI radd rmul Rth) with (b := (forallb (fun x => x =? 0) (zip Z.modulo P (map as_ axes)) && in_box (map (fun a => am a + fst (sdiv t a) + snd (sdiv t a)) axes) (zip Z.div P (map as_ axes)))%bool)
      (v := pad_indices Circular (map am axes) (map (sdiv t) axes) (zip Z.div P (map as_ axes))); [auto|apply box_nodup| |].
    - rewrite box_in. subst P. clear F Rth rI rmul radd rO. revert o j Ho Hj. unfold flip_index. induction Hok as [|a l Ha Hok IH]; intros [|v o] [|y j] Ho Hj; cbn [map in_box zip pos forallb pad_indices] in *; try discriminate; auto.
      inversion Hp as [|? ? (P0 & P1 & P2) Hp']; subst. apply andb_true_iff in Ho as [_ Ho]. apply andb_true_iff in Hj as [_ Hj]. intros H.
      rewrite !andb_true_iff in H. destruct H as [[_ H1] [[H2 H3] H4]]. rewrite (IH Hp' o j Ho Hj) by (rewrite H1, H4; auto). cbn [pad_index].
      destruct Ha as (Hm & _). assert (1 <= am a) by (destruct (Z.eq_dec (am a) 0) as [E|N]; [destruct (P2 E)|]; lia).
      match goal with |- context [?q mod am a] => pose proof (Z.mod_pos_bound q (am a) ltac:(lia)) end. lia.
    - intros i Hi. apply box_in in Hi. subst P. clear F Rth rI rmul radd rO. revert i o j Hi Ho Hj. unfold flip_index.
      induction Hok as [|a l Ha Hok IH]; intros [|x i] [|v o] [|y j] Hi Ho Hj; cbn [map in_box zip pos forallb pad_indices place lands] in *; try discriminate; [tauto|].
      inversion Hp as [|? ? (P0 & P1 & P2) Hp']; subst. apply andb_true_iff in Hi as [Hx Hi]. apply andb_true_iff in Ho as [Hv Ho]. apply andb_true_iff in Hj as [Hy Hj].
      specialize (IH Hp' i o j Hi Ho Hj). rewrite andb_true_iff, IH. clear IH. cbn [over pad_index]. rewrite Z.eqb_eq.
      destruct Ha as (Hm & Hk & Hs & Hd). unfold out_size in Hv. rewrite dil_win in Hv by auto. unfold win_size in Hv.
      unfold sdiv, smod in *. cbn [fst snd] in *.
      assert (HN : dil (am a + fst (tpad t a) / as_ a + snd (tpad t a) / as_ a) (as_ a) = (am a + fst (tpad t a) / as_ a + snd (tpad t a) / as_ a - 1) * as_ a + 1).
      { unfold dil. destruct (Z.eqb_spec (am a + fst (tpad t a) / as_ a + snd (tpad t a) / as_ a) 0); lia. }
      rewrite HN, Z.div_1_r in Hv.
      pose proof (over_circ (as_ a) (am a) (fst (tpad t a)) (snd (tpad t a)) (ad a * (ak a - 1)) (y * ad a) v x Hs ltac:(lia) P0 P1 ltac:(nia) ltac:(lia)) as HO. cbv zeta in HO.
      replace (x * as_ a + y * ad a - cut t a - v) with (x * as_ a + y * ad a - (ad a * (ak a - 1) - fst (tpad t a)) - v) by (rewrite cut_tpad; lia).
      replace (v * 1 + (ak a - 1 - y) * ad a - fst (tpad t a) mod as_ a) with (v + (ad a * (ak a - 1) - y * ad a) - fst (tpad t a) mod as_ a) by lia.
      rewrite HO. rewrite !andb_true_iff, Z.eqb_eq, Z.leb_le, Z.ltb_lt. clear. split.
      + intros ((A1 & A2 & ->) & (A3 & A4) & ->). repeat split; auto; lia.
      + intros (((A1 & A3) & (A2 & A4)) & E). injection E as -> ->. repeat split; auto; lia.
  Qed.

  Theorem C100_value : forall t m axes ci co g w b (x z : @tensor R), Forall ok_axis axes ->
    wsh w = map ak axes -> tsh x = map am axes ->
    convt_call rO radd rmul (layer_of t m axes ci co g) w b x = Ok z ->
    tch x = g * win w /\ tch z = wout w /\ (Forall (fun a => 1 <= am a) axes -> tsh z = map (spread_len t) axes) /\
    forall oc o, In o (box (tsh z)) -> tval z oc o = spread m t w b g axes x oc o.
  Proof.
    intros t m axes ci co g w b x z Hok Hw Hx Hc. unfold convt_call in Hc. destruct (negb _); [discriminate|].
    rewrite padding_transpose_of in Hc. cbn [bind pmode layer_of stride nsd dilation groups] in Hc.
    apply bind_ok in Hc as ([xp ps] & Hp & Hc). apply bind_ok in Hc as (z0 & Hz & Hc).
    assert (HB : tch z = tch z0 /\ tsh z = tsh z0 /\ forall oc o, tval z oc o = match b with Some f => radd (tval z0 oc o) (f oc) | None => tval z0 oc o end).
    { destruct b; cbn [add_bias] in Hc; injection Hc as <-; cbn [tch tsh tval]; auto. }
    destruct HB as (HB1 & HB2 & HB3). rewrite HB1, HB2. clear HB1.
    assert (Hgoal : tch x = g * win w /\ tch z0 = wout w /\ (Forall (fun a => 1 <= am a) axes -> tsh z0 = map (spread_len t) axes) /\ forall oc o, In o (box (tsh z0)) -> tval z0 oc o = spread m t w None g axes x oc o).
    2: { destruct Hgoal as (G1 & G2 & G4 & G3). do 3 (split; [auto|]). intros oc o Ho. rewrite HB3, G3 by auto. destruct b; auto. }
    clear HB2 HB3 Hc z b. apply conv_gd_inv in Hz as (Hd & Hch & _ & Hg & ->). cbn [tch tsh tval]. rewrite Hw, repeat_map.
    (** It is enough to know the dilated input. *)
    assert (HK : tch xp = tch x /\ (Forall (fun a => 1 <= am a) axes -> out_sizes (tsh xp) ps (map ak axes) (map (fun _ => 1) axes) (map as_ axes) (map ad axes) = map (spread_len t) axes) /\ forall c o j, In o (box (out_sizes (tsh xp) ps (map ak axes) (map (fun _ => 1) axes) (map as_ axes) (map ad axes))) -> In j (box (map ak axes)) ->
      ext rO (tsh xp) (map as_ axes) (tval xp c) (pos o (map (fun _ => 1) axes) (flip_index (map ak axes) j) (map ad axes) ps) =
      sum rO radd (box (map am axes)) (fun i => if lands m axes (place (cut t) axes i j) o then tval x c i else rO)).
    { assert (HM : m = Circular \/ m <> Circular) by (destruct m; auto; right; congruence). destruct HM as [->|HM].
      - unfold circular_pad in Hp. cbn [stride layer_of] in Hp.
        apply bind_ok in Hp as (y & Hy & Hp). injection Hp as -> <-. rewrite !zip_maps in *.
        change (map (fun a => (fst (tpad t a) / as_ a, snd (tpad t a) / as_ a)) axes) with (map (sdiv t) axes) in Hy.
        change (map (fun a => (fst (tpad t a) mod as_ a, snd (tpad t a) mod as_ a)) axes) with (map (smod t) axes) in *.
        assert (HP : Forall (fun a => 0 <= fst (sdiv t a) /\ 0 <= snd (sdiv t a) /\ (am a = 0 -> fst (sdiv t a) = 0 /\ snd (sdiv t a) = 0)) axes).
        { unfold jpad in Hy. rewrite Hx in Hy. destruct (negb _); [discriminate|]. rewrite existsb_map', existsb_zip_map in Hy.
          match type of Hy with (if ?b then _ else _) = _ => destruct b eqn:F1; [discriminate|] end. match type of Hy with (if ?b then _ else _) = _ => destruct b eqn:F2; [discriminate|] end.
          clear -F1 F2. induction axes as [|a l IH]; constructor; cbn [existsb] in F1, F2; apply orb_false_iff in F1 as [F1 F1']; apply orb_false_iff in F2 as [F2 F2']; auto. lia. }
        pose proof (jpad_inv _ _ _ _ Hy) as ->. cbn [tch tsh tval]. split; [auto|]. rewrite Hx, zip_maps. split.
        { clear -HP Hok. induction Hok as [|a l (Hm & Hk & Hs & Hd) Hok IH]; intros H1; cbn [map out_sizes]; auto. inversion HP as [|? ? (P0 & P1 & _) HP']; inversion H1; subst. rewrite IH by auto. f_equal.
          unfold out_size, spread_len. rewrite dil_win by auto. unfold sdiv, smod, win_size in *. cbn [fst snd] in *. unfold dil.
          pose proof (Z.div_mod (fst (tpad t a)) (as_ a) ltac:(lia)) as D0. pose proof (Z.div_mod (snd (tpad t a)) (as_ a) ltac:(lia)) as D1.
          destruct (Z.eqb_spec (am a + fst (tpad t a) / as_ a + snd (tpad t a) / as_ a) 0); [lia|]. rewrite Z.div_1_r. f_equal. rewrite cut_tpad in *. rewrite cut_end_tpad in *. lia. }
        intros c o j Ho Hj.
        rewrite (spread_circ t axes (tval x c) o j Hok HP); auto. apply box_in. revert Ho.
        match goal with |- In o (box ?l) -> In o (box ?l') => replace l with l'; [auto|] end.
        clear. induction axes as [|a l IH]; cbn [map out_sizes]; auto. rewrite <- IH. auto.
      - assert (Hp' : (xp, ps) = (x, map (tpad t) axes)) by (destruct m; congruence). injection Hp' as -> ->. split; [auto|]. split.
        { rewrite Hx. clear -Hok. induction Hok as [|a l (Hm & Hk & Hs & Hd) Hok IH]; intros H1; cbn [map out_sizes]; auto. inversion H1; subst. rewrite IH by auto. f_equal.
          unfold out_size, spread_len. rewrite dil_win by auto. unfold dil, win_size. destruct (Z.eqb_spec (am a) 0); [lia|]. rewrite Z.div_1_r, cut_tpad, cut_end_tpad. f_equal. lia. }
        intros c o j Ho Hj. rewrite Hx in *. apply spread_zeros; auto.
        rewrite <- (repeat_map axes 1), out_sizes_convt in Ho. apply box_len in Ho. rewrite map_length in Ho. auto. }
    destruct HK as (HK1 & HK3 & HK2). rewrite HK1 in *. split; [rewrite <- Hch; apply Z.div_exact; lia|]. split; [auto|]. split; [exact HK3|]. intros oc o Ho. unfold spread. rewrite total_sum. apply sum_ext'. intros ic _.
    rewrite <- (sum_flip rO rI radd rmul Rth). rewrite (sum_swap rO rI radd rmul Rth). apply sum_ext'. intros j Hj. rewrite HK2 by auto. rewrite (sum_mul_l rO rI radd rmul Rth). apply sum_ext'. intros i _.
    rewrite mirrored_flip. destruct (lands _ _ _ _); auto. ring.
  Qed.
End Ring.
Print Assumptions C100_value.

Section Accepts.
  Context {R : Type} (rO : R) (radd rmul : R -> R -> R).
  Lemma gd_accepts_t (y : @tensor R) w axes (pd : axis -> Z * Z) g (f : axis -> Z) : Forall ok_axis axes -> tsh y = map f axes ->
    (exists z, conv_gd rO radd rmul y w (repeat 1 (List.length axes)) (map pd axes) (map as_ axes) (map ad axes) g = Ok z) <->
    List.length (wsh w) = List.length axes /\ 1 <= g /\ tch y = g * win w /\ (g | wout w) /\ Forall (fun a => 0 <= dil (f a) (as_ a) + fst (pd a) + snd (pd a)) axes.
  Proof.
    intros Hok Hy. unfold conv_gd. rewrite Hy, !map_length, repeat_length, repeat_map, !Nat.eqb_refl, !andb_true_r. rewrite zip_maps, zip_maps, existsb_map'.
    destruct (Nat.eqb_spec (List.length (wsh w)) (List.length axes)) as [E|E]; cbn [negb].
    2: { split; [intros [z H]; discriminate|intros [H _]; congruence]. }
    replace (forallb (fun z => 1 <=? z) (g :: map (fun _ => 1) axes ++ map as_ axes ++ map ad axes)) with (1 <=? g).
    2: { cbn [forallb]. replace (forallb _ (map (fun _ => 1) axes ++ _)) with true; [rewrite andb_true_r; auto|]. symmetry. rewrite forallb_forall. intros v Hv. rewrite Forall_forall in Hok.
         rewrite !in_app_iff, !in_map_iff in Hv. destruct Hv as [(a & <- & Ha)|[(a & <- & Ha)|(a & <- & Ha)]]; try (apply Hok in Ha as (H1 & H2 & H3 & H4)); apply Z.leb_le; lia. }
    destruct (Z.leb_spec 1 g) as [Hg|Hg]; cbn [negb].
    2: { split; [intros [z H]; discriminate|intros (_ & H & _); lia]. }
    destruct ((tch y mod g =? 0) && (tch y / g =? win w) && (wout w mod g =? 0)) eqn:E1; cbn [negb].
    2: { split; [intros [z H]; discriminate|intros (_ & _ & H1 & H2 & _)]. exfalso. rewrite H1, Z.mul_comm, Z.mod_mul, Z.div_mul in E1 by lia.
         apply Z.mod_divide in H2; [|lia]. rewrite H2, !Z.eqb_refl in E1. discriminate. }
    rewrite !andb_true_iff, !Z.eqb_eq in E1. destruct E1 as [[E1 E2] E3].
    assert (EX : existsb (fun a => dil (f a) (as_ a) + fst (pd a) + snd (pd a) <? 0) axes = false <-> Forall (fun a => 0 <= dil (f a) (as_ a) + fst (pd a) + snd (pd a)) axes).
    { apply existsb_none. intros a Ha. rewrite Z.ltb_ge. reflexivity. }
    destruct (existsb _ _).
    - split; [intros [z H]; discriminate|intros (_ & _ & _ & _ & H)]. apply EX in H. discriminate.
    - split; [intros _|intros _; eexists; reflexivity]. split; [auto|]. split; [auto|]. split; [rewrite <- E2; apply Z.div_exact; lia|].
      split; [apply Z.mod_divide; lia|apply EX; auto].
  Qed.
  (** Which inputs are accepted: the cuts may not exceed what there is. *)
  Definition can_cut (m : mode) (t : kind) (a : axis) : Prop :=
    let reach := ad a * (ak a - 1) in
    match m with
    | Circular => cut t a <= reach /\ cut_end t a <= reach /\ (am a = 0 -> reach - cut t a < as_ a /\ reach - cut_end t a < as_ a)
    | _ => cut t a + cut_end t a <= 2 * reach + (if am a =? 0 then 0 else (am a - 1) * as_ a + 1)
    end.
  Theorem C100_accepts : forall t m axes ci co g w b (x : @tensor R), Forall ok_axis axes -> tsh x = map am axes ->
    (exists z, convt_call rO radd rmul (layer_of t m axes ci co g) w b x = Ok z) <->
    List.length (wsh w) = List.length axes /\ 1 <= g /\ tch x = g * win w /\ (g | wout w) /\ Forall (can_cut m t) axes.
  Proof.
    intros t m axes ci co g w b x Hok Hx. unfold convt_call. cbn [pmode layer_of stride nsd dilation groups].
    rewrite Hx, map_length, Nat.eqb_refl. cbn [negb]. rewrite padding_transpose_of. cbn [bind].
    assert (HB : forall r : res tensor, (exists z, bind r (fun y => Ok (add_bias radd b y)) = Ok z) <-> exists z, r = Ok z).
    { intros [z|e]; cbn [bind]; split; intros [z0 H]; try discriminate; eauto. }
    assert (HZ : m <> Circular -> Forall (fun a => 0 <= dil (am a) (as_ a) + fst (tpad t a) + snd (tpad t a)) axes <-> Forall (can_cut m t) axes).
    { intros Hm. rewrite !Forall_forall. split; intros H a Ha; specialize (H a Ha); unfold can_cut, dil in *; rewrite ?cut_tpad, ?cut_end_tpad in *; destruct m; try congruence; destruct (Z.eqb_spec (am a) 0); lia. }
    assert (HM : m = Circular \/ m <> Circular) by (destruct m; auto; right; congruence). destruct HM as [->|HM].
    2: { assert (E : forall r : res (tensor * list (Z * Z)), match m with Circular => r | _ => Ok (x, map (tpad t) axes) end = Ok (x, map (tpad t) axes)) by (destruct m; congruence).
         rewrite E. cbn [bind]. rewrite HB, (gd_accepts_t x w axes (tpad t) g am Hok Hx), (HZ HM). reflexivity. }
    clear HZ. unfold circular_pad. cbn [stride layer_of]. rewrite !zip_maps.
    change (map (fun a => (fst (tpad t a) / as_ a, snd (tpad t a) / as_ a)) axes) with (map (sdiv t) axes).
    change (map (fun a => (fst (tpad t a) mod as_ a, snd (tpad t a) mod as_ a)) axes) with (map (smod t) axes).
    assert (HF : Forall (can_cut Circular t) axes <-> Forall (fun a => (0 <= fst (sdiv t a) /\ 0 <= snd (sdiv t a)) /\ (am a = 0 -> fst (sdiv t a) + snd (sdiv t a) <= 0)) axes).
    { rewrite !Forall_forall. split; intros H a Ha; specialize (H a Ha); assert (Hs : 1 <= as_ a) by (rewrite Forall_forall in Hok; apply (Hok a Ha)); unfold can_cut, sdiv in *; cbn [fst snd] in *;
        pose proof (cut_tpad t a) as C1; pose proof (cut_end_tpad t a) as C2;
        pose proof (Z.div_mod (fst (tpad t a)) (as_ a) ltac:(lia)) as D0; pose proof (Z.div_mod (snd (tpad t a)) (as_ a) ltac:(lia)) as D1;
        pose proof (Z.mod_pos_bound (fst (tpad t a)) (as_ a) ltac:(lia)) as B0; pose proof (Z.mod_pos_bound (snd (tpad t a)) (as_ a) ltac:(lia)) as B1;
        set (u0 := fst (tpad t a) / as_ a) in *; set (u1 := snd (tpad t a) / as_ a) in *; clearbody u0 u1.
      - destruct H as (H1 & H2 & H3). assert (L : forall u r q, q = as_ a * u + r -> 0 <= r < as_ a -> (0 <= q -> 0 <= u) /\ (q < as_ a -> u <= 0)) by (clear -Hs; intros; nia). destruct (L _ _ _ D0 B0), (L _ _ _ D1 B1). split; [split; lia|]. intros E. destruct (H3 E). lia.
      - destruct H as ((H1 & H2) & H3). split; [nia|]. split; [nia|]. intros E. specialize (H3 E). assert (u0 = 0 /\ u1 = 0) as [-> ->] by lia. lia. }
    rewrite HF. clear HF. unfold jpad. rewrite Hx, !map_length, Nat.eqb_refl. cbn [negb]. rewrite existsb_map', existsb_zip_map, zip_maps.
    assert (E1 : existsb (fun a => (fst (sdiv t a) <? 0) || (snd (sdiv t a) <? 0)) axes = false <-> Forall (fun a => 0 <= fst (sdiv t a) /\ 0 <= snd (sdiv t a)) axes).
    { apply existsb_none. intros a _. rewrite orb_false_iff, !Z.ltb_ge. reflexivity. }
    assert (E2 : existsb (fun a => (am a =? 0) && (0 <? fst (sdiv t a) + snd (sdiv t a))) axes = false <-> Forall (fun a => am a = 0 -> fst (sdiv t a) + snd (sdiv t a) <= 0) axes).
    { apply existsb_none. intros a _. rewrite andb_false_iff, Z.eqb_neq, Z.ltb_ge. destruct (Z.eq_dec (am a) 0); split; intros H; try lia. }
    destruct (existsb (fun a => (fst (sdiv t a) <? 0) || (snd (sdiv t a) <? 0)) axes); cbn [bind].
    { split; [intros [z H]; discriminate|intros (_ & _ & _ & _ & H)]. apply Forall_and_inv in H as [H _]. apply E1 in H. discriminate. }
    destruct (existsb (fun a => (am a =? 0) && (0 <? fst (sdiv t a) + snd (sdiv t a))) axes); cbn [bind].
    { split; [intros [z H]; discriminate|intros (_ & _ & _ & _ & H)]. apply Forall_and_inv in H as [_ H]. apply E2 in H. discriminate. }
    pose proof (proj1 E1 eq_refl) as P1. pose proof (proj1 E2 eq_refl) as P2. rewrite HB.
    rewrite (gd_accepts_t {| tch := tch x; tsh := map (fun a => am a + fst (sdiv t a) + snd (sdiv t a)) axes; tval := fun c i => tval x c (pad_indices Circular (map am axes) (map (sdiv t) axes) i) |} w axes (smod t) g (fun a => am a + fst (sdiv t a) + snd (sdiv t a)) Hok eq_refl).
    cbn [tch]. split; intros (Q1 & Q2 & Q3 & Q4 & Q5); do 4 (split; [auto|]); [apply Forall_and; auto|].
    rewrite Forall_forall in *. intros a Ha. destruct (Hok a Ha) as (H1 & H2 & H3 & H4). destruct (P1 a Ha) as [H5 H6]. unfold smod. cbn [fst snd].
    pose proof (Z.mod_pos_bound (fst (tpad t a)) (as_ a) ltac:(lia)) as B0. pose proof (Z.mod_pos_bound (snd (tpad t a)) (as_ a) ltac:(lia)) as B1.
    unfold dil. destruct (Z.eqb_spec (am a + fst (sdiv t a) + snd (sdiv t a)) 0); [lia|]. nia.
  Qed.
  (** Refusals. *)
  Lemma gd_errors (y : @tensor R) w s ps ld rd g e n : conv_gd rO radd rmul y w s ps ld rd g = Err e ->
    List.length (tsh y) = n -> List.length s = n -> List.length ps = n -> List.length ld = n -> List.length rd = n ->
    e = ValueError \/ (e = TypeError /\ List.length (wsh w) <> n).
  Proof.
    intros H L1 L2 L3 L4 L5. unfold conv_gd in H. rewrite L1, L2, L3, L4, L5, !Nat.eqb_refl, !andb_true_r in H.
    destruct (Nat.eqb_spec (List.length (wsh w)) n) as [E|E]; cbn [negb] in H; [|right; split; congruence].
    left. destruct (negb _); [congruence|]. destruct (negb _); [congruence|]. destruct (existsb _ _); congruence.
  Qed.
  Lemma jpad_err m (x : @tensor R) ps e : jpad m x ps = Err e -> e = ValueError.
  Proof. unfold jpad. destruct (negb _); [congruence|]. destruct (existsb _ _); [congruence|]. destruct (existsb _ _); congruence. Qed.
  Lemma jpad_len m (x y : @tensor R) ps : jpad m x ps = Ok y -> List.length (tsh y) = List.length (tsh x).
  Proof.
    intros H. pose proof (jpad_inv _ _ _ _ H) as ->. cbn [tsh]. unfold jpad in H. destruct (Nat.eqb_spec (List.length ps) (List.length (tsh x))) as [E|]; [|discriminate]. apply zip_len. auto.
  Qed.
  Lemma bias_err (r : res (@tensor R)) b e : bind r (fun y => Ok (add_bias radd b y)) = Err e -> r = Err e.
  Proof. destruct r; cbn [bind]; congruence. Qed.
  Theorem C90_errors : forall t m axes ci co g w b (x : @tensor R) e, Forall ok_axis axes ->
    conv_call rO radd rmul (layer_of t m axes ci co g) w b x = Err e ->
    e = ValueError \/ (e = TypeError /\ List.length (wsh w) <> List.length axes).
  Proof.
    intros t m axes ci co g w b x e Hok H.
    destruct (Nat.eq_dec (List.length (tsh x)) (List.length axes)) as [L|L]; [|left; rewrite C90_rank in H by exact L; congruence].
    assert (HP : exists ps, conv_pads (layer_of t m axes ci co g) (tsh x) = Ok ps /\ List.length ps = List.length axes).
    { unfold conv_pads. cbn [padding layer_of kernel dilation stride]. assert (LZ : forall f : Z -> Z -> Z -> Z * Z, List.length (zip3 f (tsh x) (zip dil (map ak axes) (map ad axes)) (map as_ axes)) = List.length axes).
      { intros f. clear -L. revert L. generalize (tsh x). induction axes as [|a l IH]; intros [|v ns] L; cbn [map zip zip3 List.length] in *; try lia. rewrite IH; lia. }
      destruct t; cbn [pads_of]; try (eexists; split; [reflexivity|]; auto; rewrite map_length; auto; fail).
      exists (map (fun a => (ap0 a, ap1 a)) axes). rewrite map_length. split; [|auto].
      replace (all_some (map (fun a => Some (ap0 a, ap1 a)) axes)) with (Some (map (fun a => (ap0 a, ap1 a)) axes)); [auto|].
      clear. induction axes as [|a l IH]; cbn [map all_some]; auto. rewrite <- IH. auto. }
    destruct HP as (ps & EP & Lp). unfold conv_call in H. rewrite EP in H. cbn [bind pmode layer_of stride nsd dilation groups] in H. rewrite L, Nat.eqb_refl in H. cbn [negb] in H. apply bias_err in H.
    destruct (mode_zeros m) as [->|Hm].
    - apply gd_errors with (n := List.length axes) in H; rewrite ?map_length, ?repeat_length; auto.
    - assert (H' : bind (jpad m x ps) (fun xp => conv_gd rO radd rmul xp w (map as_ axes) (repeat (0, 0) (List.length axes)) (repeat 1 (List.length axes)) (map ad axes) g) = Err e) by (destruct m; auto; congruence).
      destruct (jpad m x ps) as [xp|e'] eqn:J; cbn [bind] in H'.
      + apply jpad_len in J. apply gd_errors with (n := List.length axes) in H'; rewrite ?map_length, ?repeat_length; auto; congruence.
      + left. apply jpad_err in J. congruence.
  Qed.
  Theorem C100_errors : forall t m axes ci co g w b (x : @tensor R) e,
    convt_call rO radd rmul (layer_of t m axes ci co g) w b x = Err e ->
    e = ValueError \/ (e = TypeError /\ List.length (wsh w) <> List.length axes).
  Proof.
    intros t m axes ci co g w b x e H. unfold convt_call in H. rewrite padding_transpose_of in H. cbn [bind pmode layer_of stride nsd dilation groups] in H.
    destruct (Nat.eqb_spec (List.length (tsh x)) (List.length axes)) as [L|L]; cbn [negb] in H; [|left; congruence].
    assert (HC : (exists xp ps, List.length (tsh xp) = List.length axes /\ List.length ps = List.length axes /\ conv_gd rO radd rmul xp w (repeat 1 (List.length axes)) ps (map as_ axes) (map ad axes) g = Err e) \/ e = ValueError).
    { assert (HM : m = Circular \/ m <> Circular) by (destruct m; auto; right; congruence). destruct HM as [->|HM].
      - unfold circular_pad in H. cbn [stride layer_of] in H. rewrite !zip_maps in H. destruct (jpad _ _ _) as [xp|e'] eqn:J; cbn [bind] in H.
        + left. apply bias_err in H. apply jpad_len in J. eexists _, _. split; [rewrite J; exact L|]. split; [|exact H]. apply map_length.
        + right. apply jpad_err in J. congruence.
      - left. assert (E : forall r : res (tensor * list (Z * Z)), match m with Circular => r | _ => Ok (x, map (tpad t) axes) end = Ok (x, map (tpad t) axes)) by (destruct m; congruence).
        rewrite E in H. cbn [bind] in H. apply bias_err in H. eexists _, _. split; [exact L|]. split; [|exact H]. apply map_length. }
    destruct HC as [(xp & ps & L1 & L2 & HC)| ->]; [|auto]. apply gd_errors with (n := List.length axes) in HC; rewrite ?map_length, ?repeat_length; auto.
  Qed.
  Theorem C100_rank : forall l w b (x : @tensor R), List.length (tsh x) <> nsd l -> convt_call rO radd rmul l w b x = Err ValueError.
  Proof. intros l w b x H. unfold convt_call. destruct (Nat.eqb_spec (List.length (tsh x)) (nsd l)); [congruence|reflexivity]. Qed.
End Accepts.
Print Assumptions C100_accepts.
Print Assumptions C90_errors.
Print Assumptions C100_errors.
Print Assumptions C100_rank.

(** The constructors raise nothing else (lines 20-67, 156-185, 495-543). *)
Lemma ntuple_err n x e : ntuple n x = Err e -> e = ValueError.
Proof. destruct x; cbn [ntuple]; [discriminate|]. destruct (Nat.eqb _ _); congruence. Qed.
Lemma padding_init_err p n e : padding_init p n = Err e -> e = ValueError.
Proof.
  destruct p; cbn [padding_init]; [|discriminate|].
  - destruct (String.eqb _ _); [discriminate|]. destruct (String.eqb _ _); [discriminate|]. destruct (String.eqb _ _); congruence.
  - destruct (Nat.eqb _ _); [destruct (forallb _ _); discriminate|congruence].
Qed.
Lemma padding_mode_init_err s e : padding_mode_init s = Err e -> e = ValueError.
Proof. unfold padding_mode_init. repeat (destruct (String.eqb _ _); [discriminate|]). congruence. Qed.
Lemma weight_shape_err o gin k e : weight_shape o gin k = Err e -> e = ValueError \/ (e = ZeroDivisionError /\ gin * fold_right Z.mul 1 k = 0).
Proof.
  unfold weight_shape. cbv zeta. destruct (Z.ltb_spec (gin * prod k) 0); [left; congruence|]. destruct (Z.eqb_spec (gin * prod k) 0) as [E|]; [right; split; [congruence|exact E]|].
  destruct (forallb _ _); [discriminate|left; congruence].
Qed.
(** Division by zero: no groups, or no inputs to each output. *)
Definition divides_by_zero (n : nat) (inc : Z) (k : ints) (g : Z) : Prop :=
  g = 0 \/ exists ks, match k with AnInt z => ks = repeat z n | ASeq l => ks = l /\ List.length l = n end /\ (inc / g) * fold_right Z.mul 1 ks = 0.
Lemma ntuple_ok n k ks : ntuple n k = Ok ks -> match k with AnInt z => ks = repeat z n | ASeq l => ks = l /\ List.length l = n end.
Proof. destruct k; cbn [ntuple]; [congruence|]. destruct (Nat.eqb_spec (List.length l) n); [|discriminate]. intros H. injection H as <-. auto. Qed.
Theorem C60_errors : forall n inc outc k s p d g b m dt e, conv_init n inc outc k s p d g b m dt = Err e ->
  e = ValueError \/ (e = ZeroDivisionError /\ divides_by_zero n inc k g).
Proof.
  intros n inc outc k s p d g b m dt e H. unfold conv_init in H.
  destruct (ntuple n k) as [k'|?] eqn:K; cbn [bind] in H; [|injection H as <-; left; eapply ntuple_err; eauto].
  destruct (ntuple n s) as [s'|?] eqn:S; cbn [bind] in H; [|injection H as <-; left; eapply ntuple_err; eauto].
  destruct (ntuple n d) as [d'|?] eqn:D; cbn [bind] in H; [|injection H as <-; left; eapply ntuple_err; eauto].
  destruct (Z.eqb_spec g 0) as [G|G]; [right; split; [congruence|left; auto]|]. destruct (negb _); [left; congruence|].
  destruct (weight_shape _ _ _) as [w|?] eqn:W; cbn [bind] in H.
  2: { injection H as <-. apply weight_shape_err in W as [->|[-> W]]; [auto|]. right. split; [auto|]. right. exists k'. split; [apply ntuple_ok; auto|auto]. }
  destruct (padding_init p n) as [p'|?] eqn:P; cbn [bind] in H; [|injection H as <-; left; eapply padding_init_err; eauto].
  destruct (padding_mode_init m) as [m'|?] eqn:M; cbn [bind] in H; [discriminate|injection H as <-; left; eapply padding_mode_init_err; eauto].
Qed.
Theorem C60_transpose_errors : forall n inc outc k s p a d g b m dt e, convt_init n inc outc k s p a d g b m dt = Err e ->
  e = ValueError \/ (e = ZeroDivisionError /\ divides_by_zero n inc k g) \/ (e = NotImplementedError /\ upper m <> "ZEROS"%string).
Proof.
  intros n inc outc k s p a d g b m dt e H. unfold convt_init in H.
  destruct (ntuple n k) as [k'|?] eqn:K; cbn [bind] in H; [|injection H as <-; left; eapply ntuple_err; eauto].
  destruct (ntuple n s) as [s'|?] eqn:S; cbn [bind] in H; [|injection H as <-; left; eapply ntuple_err; eauto].
  destruct (ntuple n a) as [a'|?] eqn:A; cbn [bind] in H; [|injection H as <-; left; eapply ntuple_err; eauto].
  destruct (ntuple n d) as [d'|?] eqn:D; cbn [bind] in H; [|injection H as <-; left; eapply ntuple_err; eauto].
  destruct (opad_check s' a') as [?|?] eqn:O; cbn [bind] in H; [|injection H as <-; left; unfold opad_check in O; destruct (existsb _ _); congruence].
  destruct (Z.eqb_spec g 0) as [G|G]; [right; left; split; [congruence|left; auto]|].
  destruct (weight_shape _ _ _) as [w|?] eqn:W; cbn [bind] in H.
  2: { injection H as <-. apply weight_shape_err in W as [->|[-> W]]; [auto|]. right. left. split; [auto|]. right. exists k'. split; [apply ntuple_ok; auto|auto]. }
  destruct (padding_init p n) as [p'|?] eqn:P; cbn [bind] in H; [|injection H as <-; left; eapply padding_init_err; eauto].
  destruct (padding_mode_init m) as [m'|?] eqn:M; cbn [bind] in H; [|injection H as <-; left; eapply padding_mode_init_err; eauto].
  right. right. split; [destruct m'; try congruence; destruct (existsb _ _); try congruence; destruct p'; congruence|].
  intros E. unfold padding_mode_init in M. rewrite E in M. cbn in M. injection M as <-. discriminate.
Qed.
Print Assumptions C60_errors.
Print Assumptions C60_transpose_errors.

(** Two inputs, stride 2, kernel of three: zeros, then circular. *)
Definition ex_up (m : mode) (t : kind) : res (list Z) :=
  z <- convt_call 0 Z.add Z.mul (layer_of t m [{| am := 2; ak := 3; as_ := 2; ad := 1; ao := 0; ap0 := 0; ap1 := 0 |}] 1 1 1)
    {| wout := 1; win := 1; wsh := [3]; wval := fun _ _ j => match j with [0] => 7 | [1] => 5 | _ => 3 end |} None
    {| tch := 1; tsh := [2]; tval := fun _ i => match i with [0] => 1 | _ => 10 end |} ;; Ok (map (tval z 0) (box (tsh z))).
Example C100_ex : ex_up Zeros KValid = Ok [3; 5; 37; 50; 70] /\ ex_up Zeros KSame = Ok [3; 5; 37; 50] /\ ex_up Circular KSame = Ok [73; 5; 37; 50] /\ ex_up Zeros KSameLower = Ok [5; 37; 50; 70].
Proof. vm_compute. auto. Qed.
