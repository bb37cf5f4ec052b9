(** C112 (first part): convolutions that are linear layers or averages. Models: Conv_Model, Mlp_Model ([Linear]), PoolNd_Model. *)
From Coq Require Import Lia.
From Verif Require Import Conv_Proofs Conv_Proofs2 ConvValue_Props.
From Verif Require Mlp_Model.
Local Open Scope Z_scope.
Local Open Scope list_scope.

(** ** Vocabulary *)
Section Pointwise.
  Context {R : Type} (rO : R) (radd rmul : R -> R -> R).
  (** A kernel of size one, stride one and no padding ('SAME', 'SAME_LOWER', 'VALID' or zeros). *)
  Definition one_axis (a : axis) : Prop := 0 <= am a /\ ak a = 1 /\ as_ a = 1 /\ 1 <= ad a.
  Definition unpadded (t : kind) (axes : list axis) : Prop := match t with KExplicit => Forall (fun a => ap0 a = 0 /\ ap1 a = 0) axes | _ => True end.
  (** The entries of all channels at a place. *)
  Definition column (x : @tensor R) (o : list Z) : list R := map (fun c => tval x c o) (zrange (tch x)).
  (** The linear layer with the same weight and bias. *)
  Definition as_linear (w : @weight R) (b : option (Z -> R)) : Mlp_Model.linear R :=
    {| Mlp_Model.weight := map (fun oc => map (fun ic => wval w oc ic (map (fun _ => 0) (wsh w))) (zrange (win w))) (zrange (wout w));
       Mlp_Model.bias := option_map (fun f => map f (zrange (wout w))) b;
       Mlp_Model.in_features := Mlp_Model.Size (Z.to_nat (win w)); Mlp_Model.out_features := Mlp_Model.Size (Z.to_nat (wout w));
       Mlp_Model.use_bias := match b with Some _ => true | None => false end |}.

  Lemma one_cpad t axes : Forall one_axis axes -> unpadded t axes -> Forall (fun a => cpad t a = (0, 0)) axes.
  Proof using. clear.
    intros H U. destruct t; cbn [unpadded] in U.
    1, 2: eapply Forall_impl; [|exact H]; intros a (H1 & H2 & H3 & H4); cbn [cpad]; unfold same_pads, win_size; rewrite H2, H3;
      replace (Z.max ((- (- am a / 1) - 1) * 1 + (ad a * (1 - 1) + 1) - am a) 0) with 0 by (rewrite Z.div_1_r; lia); reflexivity.
    - eapply Forall_impl; [|exact H]; reflexivity.
    - eapply Forall_impl; [|exact U]. intros a [A1 A2]. cbn [cpad]. rewrite A1, A2. reflexivity.
  Qed.
  Lemma box_ones axes : Forall one_axis axes -> box (map ak axes) = [map (fun _ => 0) axes].
  Proof using. clear. induction 1 as [|a axes (_ & H & _) _ IH]; [reflexivity|]. cbn [map box]. rewrite H, IH. reflexivity. Qed.
  Lemma place_one t axes o : Forall one_axis axes -> unpadded t axes -> List.length o = List.length axes ->
    place (fun a => fst (cpad t a)) axes o (map (fun _ => 0) axes) = o.
  Proof using. clear.
    intros H U. pose proof (one_cpad t axes H U) as P. clear U. revert o. induction axes as [|a axes IH]; intros [|v o] L; cbn [List.length] in L; try lia; [reflexivity|].
    inversion H as [|? ? (_ & _ & H3 & _) H']; subst. inversion P as [|? ? P1 P']; subst. cbn [place map]. rewrite P1, H3. cbn [fst]. rewrite IH by (auto; lia). f_equal. lia.
  Qed.
  Lemma zrange_len n : List.length (zrange n) = Z.to_nat n.
  Proof using. clear. unfold zrange. rewrite map_length, seq_length. reflexivity. Qed.
  Lemma dot_sum {A} (l : list A) (f g : A -> R) : Mlp_Model.dot R rO radd rmul (map f l) (map g l) = sum rO radd l (fun a => rmul (f a) (g a)).
  Proof using. induction l as [|a l IH]; [reflexivity|]. cbn [map Mlp_Model.dot]. rewrite IH. reflexivity. Qed.
  Hypothesis add_0 : forall x, radd x rO = x.

  (** A convolution with kernels of size one applies a linear layer to the channels of each place. *)
  Theorem C112_pointwise : forall t m axes ci co w b (x : @tensor R),
    Forall one_axis axes -> unpadded t axes -> wsh w = map ak axes -> tsh x = map am axes -> win w = tch x ->
    exists z, conv_call rO radd rmul (layer_of t m axes ci co 1) w b x = Ok z /\ tch z = wout w /\ tsh z = tsh x /\
      forall o, In o (box (tsh x)) ->
        Mlp_Model.call_linear R rO radd rmul (as_linear w b) (Mlp_Model.Vec R (column x o)) = Ok (Mlp_Model.Vec R (column z o)).
  Proof using add_0.
    intros t m axes ci co w b x H U Hw Hx Hc. pose proof (one_cpad t axes H U) as P.
    assert (Hok : Forall ok_axis axes) by (eapply Forall_impl; [|exact H]; intros a (H1 & H2 & H3 & H4); repeat split; lia).
    destruct (proj2 (C90_accepts rO radd rmul t m axes ci co 1 w b x Hok Hx)) as [z Hz].
    { split; [rewrite Hw, map_length; reflexivity|]. split; [lia|]. split; [lia|]. split; [apply Z.divide_1_l|].
      rewrite Forall_forall in *. intros a Ha. rewrite (P a Ha). destruct (H a Ha) as [H1 _]. destruct m; cbn; lia. }
    assert (HE : exists E, extension rO m (map am axes) (tval x) E \/ Exists (fun a => am a = 0) axes).
    { destruct (Forall_Exists_dec (fun a => 1 <= am a) (fun a => Z_le_dec 1 (am a)) axes) as [F|F].
      - destruct (C90_extension rO m (map am axes) (tval x)) as [(E & HE) _]; [right; apply Forall_map; exact F|]. exists E. auto.
      - exists (tval x). right. apply Exists_exists in F as (a & Ha & HF). apply Exists_exists. exists a. split; [exact Ha|]. rewrite Forall_forall in H. destruct (H a Ha). lia. }
    exists z. split; [exact Hz|].
    assert (HS : tch z = wout w /\ tsh z = tsh x).
    { rewrite Hx. unfold conv_call in Hz. destruct (negb _); [discriminate|]. rewrite Hx, conv_pads_of in Hz by exact Hok. cbn [bind pmode layer_of stride nsd dilation groups] in Hz.
      assert (G : forall ps x', conv_gd rO radd rmul x' w (map as_ axes) ps (repeat 1 (List.length axes)) (map ad axes) 1 = Ok z ->
        tsh x' = map am axes -> ps = map (fun _ => (0, 0)) axes -> tch z = wout w /\ tsh z = map am axes).
      { intros ps x' HG Hx' ->. unfold conv_gd in HG. destruct (negb _); [discriminate|]. destruct (negb _); [discriminate|]. destruct (negb _); [discriminate|]. destruct (existsb _ _); [discriminate|].
        injection HG as <-. cbn [tch tsh]. split; [reflexivity|]. rewrite Hx', Hw. clear - H. induction H as [|a axes (H1 & H2 & H3 & H4) H IH]; [reflexivity|].
        cbn [map out_sizes List.length repeat fst snd]. rewrite IH. f_equal. unfold out_size. rewrite dil1 by exact H1. rewrite H2, H3. unfold dil. cbn [Z.eqb]. rewrite Z.div_1_r. lia. }
      assert (PE : map (cpad t) axes = map (fun _ => (0, 0)) axes) by (apply map_ext_in; rewrite Forall_forall in P; exact P).
      assert (G' : exists z0, tch z = tch z0 /\ tsh z = tsh z0 /\ exists ps x', conv_gd rO radd rmul x' w (map as_ axes) ps (repeat 1 (List.length axes)) (map ad axes) 1 = Ok z0 /\ tsh x' = map am axes /\ ps = map (fun _ => (0, 0)) axes).
      { apply bind_ok in Hz as (z0 & Hz0 & Hz). exists z0. split; [destruct b; injection Hz as <-; reflexivity|]. split; [destruct b; injection Hz as <-; reflexivity|].
        destruct (mode_zeros m) as [->|Hm]; [exists (map (cpad t) axes), x; auto|].
        assert (Hz' : bind (jpad m x (map (cpad t) axes)) (fun xp => conv_gd rO radd rmul xp w (map as_ axes) (repeat (0, 0) (List.length axes)) (repeat 1 (List.length axes)) (map ad axes) 1) = Ok z0) by (destruct m; auto; congruence).
        apply bind_ok in Hz' as (xp & Hxp & Hz'). exists (repeat (0, 0) (List.length axes)), xp. split; [exact Hz'|]. split; [|clear; induction axes as [|a l IH]; [reflexivity|]; cbn [List.length repeat map]; rewrite IH; reflexivity].
        unfold jpad in Hxp. destruct (negb _); [discriminate|]. destruct (existsb _ _); [discriminate|]. destruct (existsb _ _); [discriminate|]. injection Hxp as <-. cbn [tsh]. rewrite Hx, PE.
        rewrite zip_maps. apply map_ext. intros a. cbn. lia. }
      destruct G' as (z0 & -> & -> & ps & x' & G1 & G2 & G3).
      clear G Hz. unfold conv_gd in G1. destruct (negb _); [discriminate|]. destruct (negb _); [discriminate|]. destruct (negb _); [discriminate|]. destruct (existsb _ _); [discriminate|].
      injection G1 as <-. cbn [tch tsh]. split; [reflexivity|]. subst ps. rewrite G2, Hw. clear - H. induction H as [|a axes (H1 & H2 & H3 & H4) H IH]; [reflexivity|].
      cbn [map out_sizes List.length repeat fst snd]. rewrite IH. f_equal. unfold out_size. rewrite dil1 by exact H1. rewrite H2, H3. unfold dil. cbn [Z.eqb]. rewrite Z.div_1_r. lia. }
    destruct HS as [S1 S2]. split; [exact S1|]. split; [exact S2|]. intros o Ho.
    destruct HE as (E & [HE|HE]).
    2:{ exfalso. rewrite Hx in Ho. apply box_axes in Ho. apply Exists_exists in HE as (a & Ha & HE). rewrite Forall_forall in Ho. specialize (Ho a Ha). lia. }
    destruct (C90_value rO radd rmul t m axes ci co 1 w b x z E Hok Hw Hx HE Hz) as (_ & _ & _ & HV).
    unfold Mlp_Model.call_linear, as_linear. cbn [Mlp_Model.in_features Mlp_Model.out_features Mlp_Model.bias Mlp_Model.weight bind Mlp_Model.matvec Mlp_Model.dim].
    unfold column at 1. rewrite map_length, zrange_len, Hc, Nat.eqb_refl. cbn [bind]. do 2 f_equal. rewrite map_map.
    assert (EV : column z o = map (fun oc => let y := sum rO radd (zrange (tch x)) (fun ic => rmul (wval w oc ic (map (fun _ => 0) (wsh w))) (tval x ic o)) in match b with Some f => radd y (f oc) | None => y end) (zrange (wout w))).
    { unfold column. rewrite S1. apply map_ext_in. intros oc Hoc. rewrite HV by (rewrite S2; exact Ho). unfold correlation.
      assert (EY : total rO radd (Z.to_nat (win w)) (fun ic => sum rO radd (box (map ak axes)) (fun j => rmul (wval w oc ic j) (E (oc / (wout w / 1) * win w + ic) (place (fun a => fst (cpad t a)) axes o j))))
        = sum rO radd (zrange (tch x)) (fun ic => rmul (wval w oc ic (map (fun _ => 0) (wsh w))) (tval x ic o))).
      { rewrite total_sum. rewrite Hc. apply sum_ext'. intros ic Hic. rewrite box_ones by exact H. unfold sum. cbn [fold_right]. rewrite add_0.
        rewrite Hw, map_map. f_equal. rewrite place_one by (auto; rewrite (box_len _ _ Ho), Hx, map_length; reflexivity).
        rewrite (proj1 HE) by (rewrite <- Hx; exact Ho). f_equal. rewrite Z.div_1_r. unfold zrange in Hoc. apply in_map_iff in Hoc as (k & <- & Hk). apply in_seq in Hk. rewrite Z.div_small by lia. lia. }
      rewrite EY. reflexivity. }
    rewrite EV. unfold column. destruct b as [f|]; cbn [option_map].
    - clear - radd. induction (zrange (wout w)) as [|oc l IH]; [reflexivity|]. cbn [map Mlp_Model.zip]. rewrite IH. f_equal. rewrite dot_sum. reflexivity.
    - apply map_ext. intros oc. apply dot_sum.
  Qed.

  (** A transposed convolution with kernels of size one (and no output padding) is the convolution. *)
  Theorem C112_transpose : forall t axes ci co g w b (x : @tensor R),
    Forall one_axis axes -> unpadded t axes -> Forall (fun a => ao a = 0) axes -> tsh x = map am axes ->
    convt_call rO radd rmul (layer_of t Zeros axes ci co g) w b x = conv_call rO radd rmul (layer_of t Zeros axes ci co g) w b x.
  Proof using. clear add_0.
    intros t axes ci co g w b x H U HA Hx. pose proof (one_cpad t axes H U) as P.
    assert (Hok : Forall ok_axis axes) by (eapply Forall_impl; [|exact H]; intros a (H1 & H2 & H3 & H4); repeat split; lia).
    unfold convt_call, conv_call. destruct (negb _); [reflexivity|]. rewrite padding_transpose_of, Hx, conv_pads_of by exact Hok. cbn [bind pmode layer_of stride nsd dilation groups].
    assert (E1 : repeat 1 (List.length axes) = map as_ axes).
    { clear - H. induction H as [|a axes (_ & _ & H3 & _) _ IH]; [reflexivity|]. cbn [List.length repeat map]. rewrite IH, H3. reflexivity. }
    assert (E2 : map (tpad t) axes = map (cpad t) axes).
    { apply map_ext_in. intros a Ha. rewrite Forall_forall in *. rewrite (P a Ha). destruct (H a Ha) as (H1 & H2 & H3 & H4). specialize (HA a Ha).
      destruct t; cbn [tpad]; unfold same_t, explicit_t; rewrite H2, HA, ?H3; cbn [fst snd].
      - replace (ad a * (1 - 1) - 1 + 0 + 1) with 0 by lia. cbn. f_equal; lia.
      - replace (ad a * (1 - 1) - 1 + 0 + 1) with 0 by lia. cbn. f_equal; lia.
      - f_equal; lia.
      - cbn [unpadded] in U. rewrite Forall_forall in U. destruct (U a Ha) as [-> ->]. f_equal; lia. }
    rewrite E1, E2. reflexivity.
  Qed.
End Pointwise.
Print Assumptions C112_pointwise.
Print Assumptions C112_transpose.

(** ** Averages *)
From Coq Require Import Reals Lra.
From Verif Require Pool_Props PoolNd_Props.
Local Open Scope Z_scope.
(** The axis of a pooling layer as the axis of a convolution. *)
Definition cax (a : Pool_Props.axis) : axis :=
  {| am := Pool_Props.an a; ak := Pool_Props.ak a; as_ := Pool_Props.as_ a; ad := 1; ao := 0; ap0 := Pool_Props.al a; ap1 := Pool_Props.ar a |}.
(** One kernel per channel, all of whose entries are one over its size. *)
Definition mean_weight (c : nat) (axes : list Pool_Props.axis) : @weight R :=
  {| wout := Z.of_nat c; win := 1; wsh := map Pool_Props.ak axes; wval := fun _ _ _ => (/ IZR (fold_right Z.mul 1%Z (map Pool_Props.ak axes)))%R |}.
Definition as_tensor (c : nat) (axes : list Pool_Props.axis) (x : list nat -> R) : @tensor R :=
  {| tch := Z.of_nat c; tsh := map Pool_Props.an axes; tval := fun ch i => x (Z.to_nat ch :: map Z.to_nat i) |}.

Lemma offsets_box ks : PoolNd_Model.offsets ks = box ks.
Proof. induction ks as [|k ks IH]; [reflexivity|]. cbn [PoolNd_Model.offsets box]. rewrite IH. reflexivity. Qed.
Lemma inside_box axes i : Forall PoolNd_Props.ok_axis axes -> PoolNd_Model.inside (PoolNd_Props.sizes axes) i = in_box (map Pool_Props.an axes) i.
Proof.
  intros H. revert i. induction H as [|a axes (Hn & _) H IH]; intros [|v i]; try reflexivity. cbn [PoolNd_Props.sizes map PoolNd_Model.inside in_box]. fold (PoolNd_Props.sizes axes).
  rewrite IH, Z2Nat.id by exact Hn. reflexivity.
Qed.
Lemma place_same axes : forall js j, List.length js = List.length axes -> List.length j = List.length axes ->
  PoolNd_Model.place js (map Pool_Props.as_ axes) (map (fun a => (Pool_Props.al a, 0%Z)) axes) j = place (fun a => fst (cpad KExplicit a)) (map cax axes) (map Z.of_nat js) j.
Proof.
  induction axes as [|a axes IH]; intros [|v js] [|u j] L1 L2; cbn [List.length] in *; try lia; [reflexivity|]. cbn [map PoolNd_Model.place place cpad fst cax as_ ad ap0]. rewrite IH by lia. f_equal. lia.
Qed.
Lemma sum_filter {A B} (k : R) (b : B -> bool) (h : A -> B) (f : B -> R) l :
  sum 0%R Rplus l (fun a => (k * if b (h a) then f (h a) else 0)%R) = (k * PoolNd_Props.Rsum (map f (List.filter b (map h l))))%R.
Proof.
  unfold sum, PoolNd_Props.Rsum. induction l as [|a l IH]; cbn [map List.filter fold_right]; [lra|]. rewrite IH. destruct (b (h a)); cbn [map fold_right]; lra.
Qed.

(** An average layer is the convolution with constant weights, each channel being a group of its own. *)
Theorem C112_average : forall c axes (x : list nat -> R), (0 < c)%nat -> Forall PoolNd_Props.ok_axis axes ->
  forallb (Pool_Props.accepted false) axes = true -> Forall (fun a => 0 <= Pool_Props.an a + Pool_Props.al a + Pool_Props.ar a) axes ->
  exists y z, PoolNd_Model.avg_pool (Pool_Props.pool_of false axes) (c :: PoolNd_Props.sizes axes, x) = Ok y /\
    conv_call 0%R Rplus Rmult (layer_of KExplicit Zeros (map cax axes) (Z.of_nat c) (Z.of_nat c) (Z.of_nat c)) (mean_weight c axes) None (as_tensor c axes x) = Ok z /\
    tch z :: tsh z = map Z.of_nat (fst y) /\
    forall ch js, (ch < c)%nat -> In (map Z.of_nat js) (box (tsh z)) -> tval z (Z.of_nat ch) (map Z.of_nat js) = snd y (ch :: js).
Proof.
  intros c axes x Hc Hok Hacc HP. destruct (PoolNd_Props.C88_avg false c axes x Hok Hacc) as (y & Hy & Hs & Hv).
  assert (Hok' : Forall ok_axis (map cax axes)).
  { apply Forall_map. eapply Forall_impl; [|exact Hok]. intros a (H1 & H2 & H3). repeat split; cbn; lia. }
  assert (Hx : tsh (as_tensor c axes x) = map am (map cax axes)) by (rewrite map_map; reflexivity).
  assert (Hw : wsh (mean_weight c axes) = map ak (map cax axes)) by (rewrite map_map; reflexivity).
  destruct (proj2 (C90_accepts 0%R Rplus Rmult KExplicit Zeros (map cax axes) (Z.of_nat c) (Z.of_nat c) (Z.of_nat c) (mean_weight c axes) None (as_tensor c axes x) Hok' Hx)) as [z Hz].
  { rewrite Hw, map_length. split; [reflexivity|]. split; [lia|]. split; [cbn; lia|]. split; [exists 1; rewrite Z.mul_1_l; reflexivity|]. apply Forall_map. eapply Forall_impl; [|exact HP]. intros a H. exact H. }
  destruct (C90_extension 0%R Zeros (map am (map cax axes)) (tval (as_tensor c axes x)) (or_introl eq_refl)) as [(E & HE) _].
  destruct (C90_value 0%R Rplus Rmult KExplicit Zeros (map cax axes) (Z.of_nat c) (Z.of_nat c) (Z.of_nat c) (mean_weight c axes) None (as_tensor c axes x) z E Hok' Hw Hx HE Hz) as (_ & Z1 & Z2 & Z3).
  exists y, z. split; [exact Hy|]. split; [exact Hz|]. split.
  - rewrite Z1, Z2, Hs. cbn [map mean_weight wout]. f_equal. rewrite !map_map. apply map_ext_in. intros a Ha. rewrite Z2Nat.id by apply Z.le_max_l.
    unfold out_len, Pool_Props.out_size, Pool_Props.room. cbn [cpad fst snd cax am ad ak as_ ap0 ap1].
    replace (1 * (Pool_Props.ak a - 1) + 1) with (Pool_Props.ak a) by lia. reflexivity.
  - intros ch js Hch Hjs. rewrite Z3 by exact Hjs.
    assert (Lj : List.length js = List.length axes) by (apply box_len in Hjs; rewrite Z2, !map_length in Hjs; exact Hjs).
    rewrite Hv by assumption. unfold correlation. cbn [mean_weight win wval wout]. change (Z.to_nat 1) with 1%nat. cbn [total].
    rewrite Rplus_0_r. set (k := (/ IZR (fold_right Z.mul 1%Z (map Pool_Props.ak axes)))%R).
    assert (EC : Z.of_nat ch / (Z.of_nat c / Z.of_nat c) * 1 + 0 = Z.of_nat ch) by (rewrite Z.div_same, Z.div_1_r by lia; lia). rewrite EC.
    rewrite map_map. cbn [cax ak]. change (map (fun a => Pool_Props.ak a) axes) with (map Pool_Props.ak axes).
    rewrite (sum_ext' 0%R Rplus _ _ (fun j => (k * if PoolNd_Model.inside (PoolNd_Props.sizes axes) (PoolNd_Model.place js (map Pool_Props.as_ axes) (map (fun a => (Pool_Props.al a, 0%Z)) axes) j)
       then x (ch :: map Z.to_nat (PoolNd_Model.place js (map Pool_Props.as_ axes) (map (fun a => (Pool_Props.al a, 0%Z)) axes) j)) else 0)%R)).
    + rewrite (sum_filter k (PoolNd_Model.inside (PoolNd_Props.sizes axes)) (PoolNd_Model.place js (map Pool_Props.as_ axes) (map (fun a => (Pool_Props.al a, 0%Z)) axes)) (fun q => x (ch :: map Z.to_nat q))).
      rewrite <- offsets_box. rewrite <- (PoolNd_Props.places_inside (fun _ => 0) axes js Hok Lj), map_map. unfold Rdiv. apply Rmult_comm.
    + intros j Hj. apply box_len in Hj. rewrite map_length in Hj. f_equal. rewrite place_same by assumption. rewrite inside_box by exact Hok.
      rewrite (zeros_ext 0%R (map am (map cax axes)) (tval (as_tensor c axes x)) E) by (try exact HE; rewrite place_len; rewrite ?map_length; auto).
      rewrite map_map. cbn [cax am tval as_tensor]. rewrite Nat2Z.id. reflexivity.
Qed.
Print Assumptions C112_average.

(** ** Examples *)
Definition two_axes : list axis :=
  [{| am := 2; ak := 1; as_ := 1; ad := 1; ao := 0; ap0 := 0; ap1 := 0 |}; {| am := 3; ak := 1; as_ := 1; ad := 2; ao := 0; ap0 := 0; ap1 := 0 |}].
Definition pw_w : @weight Z := {| wout := 3; win := 2; wsh := [1; 1]; wval := fun oc ic _ => oc + 2 * ic - 1 |}.
Example C112_ex_pointwise : Forall one_axis two_axes /\ unpadded KExplicit two_axes /\ Forall (fun a => ao a = 0) two_axes /\
  exists z, conv_call 0 Z.add Z.mul (layer_of KExplicit Reflect two_axes 2 3 1) pw_w (Some (fun oc => 100 * oc)) ex_img = Ok z /\
  column ex_img [1; 2] = [5; 15] /\ column z [1; 2] = [10; 130; 250] /\
  Mlp_Model.call_linear Z 0 Z.add Z.mul (as_linear pw_w (Some (fun oc => 100 * oc))) (Mlp_Model.Vec Z [5; 15]) = Ok (Mlp_Model.Vec Z [10; 130; 250]).
Proof.
  split; [repeat constructor; cbn; lia|]. split; [repeat constructor|]. split; [repeat constructor|]. eexists. split; [reflexivity|]. vm_compute. auto.
Qed.
(** With a larger kernel the transposed convolution is another function. *)
Example C112_ex_transpose : exists axes w, Forall (fun a => ao a = 0 /\ as_ a = 1) axes /\ tsh ex_img = map am axes /\
  rmap (@tsh Z) (convt_call 0 Z.add Z.mul (layer_of KValid Zeros axes 2 3 1) w None ex_img) <> rmap (@tsh Z) (conv_call 0 Z.add Z.mul (layer_of KValid Zeros axes 2 3 1) w None ex_img).
Proof. exists img_axes, {| wout := 3; win := 2; wsh := [1; 2]; wval := fun _ _ _ => 1 |}. split; [repeat constructor|]. split; [reflexivity|]. vm_compute. intros H. discriminate H. Qed.
Definition avg_axes : list Pool_Props.axis := [{| Pool_Props.an := 5; Pool_Props.al := 1; Pool_Props.ar := 0; Pool_Props.ak := 3; Pool_Props.as_ := 2 |}].
Example C112_ex_average : exists z,
  conv_call 0%R Rplus Rmult (layer_of KExplicit Zeros (map cax avg_axes) 1 1 1) (mean_weight 1 avg_axes) None (as_tensor 1 avg_axes (fun i => INR (nth 1 i 0%nat))) = Ok z /\
  tsh z = [2] /\ tval z 0 [0] = (1 / 3)%R /\ tval z 0 [1] = 2%R.
Proof.
  destruct (C112_average 1 avg_axes (fun i => INR (nth 1 i 0%nat))) as (y & z & Hy & Hz & Hs & Hv); [lia|repeat constructor; cbn; lia|reflexivity|repeat constructor; cbn; lia|].
  destruct (PoolNd_Props.C88_avg false 1 avg_axes (fun i => INR (nth 1 i 0%nat))) as (y' & Hy' & Hs' & Hv'); [repeat constructor; cbn; lia|reflexivity|].
  assert (y' = y) by congruence. subst y'. exists z. split; [exact Hz|]. rewrite Hs' in Hs. assert (HT : tsh z = [2]) by (injection Hs as _ Hs; exact Hs). split; [exact HT|].
  assert (HI : forall j, (j < 2)%nat -> In (map Z.of_nat [j]) (box (tsh z))) by (intros [|[|j]] H; [rewrite HT; left; reflexivity|rewrite HT; right; left; reflexivity|lia]).
  split.
  - change (tval z (Z.of_nat 0) (map Z.of_nat [0%nat]) = (1 / 3)%R). rewrite Hv by (try apply HI; lia). rewrite Hv' by (try lia; reflexivity). change (PoolNd_Props.window_at avg_axes [0%nat]) with [[0%nat]; [1%nat]]. cbn [map nth]. unfold PoolNd_Props.Rsum. cbn [fold_right INR]. change (IZR (fold_right Z.mul 1 (map Pool_Props.ak avg_axes))) with 3%R. field.
  - change (tval z (Z.of_nat 0) (map Z.of_nat [1%nat]) = 2%R). rewrite Hv by (try apply HI; lia). rewrite Hv' by (try lia; reflexivity). change (PoolNd_Props.window_at avg_axes [1%nat]) with [[1%nat]; [2%nat]; [3%nat]]. cbn [map nth]. unfold PoolNd_Props.Rsum. cbn [fold_right INR]. change (IZR (fold_right Z.mul 1 (map Pool_Props.ak avg_axes))) with 3%R. field.
Qed.
