(** C125: the U-Net example. *)
From Coq Require FinFun.
From Verif Require Import Base UNet_Model UNet_Proofs.

Section Spec.
  Variables (hidden : nat) (mults : list nat).
  (** The widths of the levels, outermost first. *)
  Definition widths : list nat := hidden :: map (fun m => hidden * m) mults.
End Spec.
(** [norm_ok d]: [GroupNorm(min(d // 4, 32), d)] can be made. [adjacent l a b]: [b] follows [a] in [l]. Both are defined in UNet_Proofs:
    [4 <= d /\ Nat.divide (Nat.min (d / 4) 32) d] and [exists i, nth_error l i = Some a /\ nth_error l (S i) = Some b]. *)

(** When the network can be made. *)
Theorem C125_make : forall hidden data mults R H W rs bg dr,
  (exists u, make_unet hidden data mults R H W rs bg dr = Ok u) <->
  mults <> [] /\ 2 <= R /\ (forall d, In d (widths hidden mults) -> 4 <= d /\ Nat.divide (Nat.min (d / 4) 32) d)
  /\ (forall i a b, nth_error (widths hidden mults) i = Some a -> nth_error (widths hidden mults) (S i) = Some b -> norm_ok (b + b) /\ norm_ok (a + b)).
Proof.
  intros. unfold widths. set (dims := hidden :: _). split.
  - intros [u Hu]. apply make_unet_inv in Hu. cbn zeta in Hu. destruct Hu as (Hm & HR & _ & _ & _ & HD & HU & _).
    fold dims in HD, HU. set (L := length mults) in *.
    assert (HL : length (pairs dims) = L) by (unfold dims; rewrite pairs_length, map_length; reflexivity).
    apply block_ok_strip in HD. rewrite downs_core in HD by assumption. apply dcore_ok in HD.
    apply block_ok_strip in HU. rewrite ups_core in HU by assumption. apply ucore_ok in HU; [|assumption].
    unfold dims in HD, HU. rewrite pairs_Forall in HD, HU. fold dims in HD, HU.
    split; [assumption|]. split; [assumption|]. split.
    + intros d Hd. apply adjacent_in in Hd; [|destruct mults; [congruence | discriminate]].
      destruct Hd as [[b Hb] | [a Ha]]; [apply (HD d b Hb) | apply (HD a d Ha)].
    + intros i a b Ha Hb. destruct (HU a b) as (_ & _ & H1 & H2); [exists i; auto|]. cbn [fst snd] in *.
      replace (b + b) with (b * 2) by lia. replace (a + b) with (b + a) by lia. auto.
  - intros (Hm & HR & H1 & H2). unfold make_unet. fold dims. fold (pairs dims). set (L := length mults).
    assert (HL : length (pairs dims) = L) by (unfold dims; rewrite pairs_length, map_length; reflexivity).
    assert (HL1 : 1 <= L) by (destruct mults; [congruence | unfold L; simpl; lia]).
    assert (Hps : pairs dims <> []) by (intros E; rewrite E in HL; simpl in HL; lia).
    destruct (H1 hidden) as [Hh Hdiv]; [left; reflexivity|].
    replace (hidden / 2 =? 1) with false.
    2:{ symmetry. apply Nat.eqb_neq. assert (2 <= hidden / 2) by (apply Nat.div_le_lower_bound; lia). lia. }
    rewrite HL. replace (L * R <=? 1) with false by (symmetry; apply Nat.leb_gt; nia).
    assert (Hall : forall a b, adjacent dims a b -> norm_ok a /\ norm_ok b /\ norm_ok (b * 2) /\ norm_ok (b + a)).
    { intros a b Hab. assert (Ha : norm_ok a) by (apply H1; destruct Hab as (i & Hi & _); eapply nth_error_In; eassumption).
      assert (Hb : norm_ok b) by (apply H1; destruct Hab as (i & _ & Hi); eapply nth_error_In; eassumption).
      destruct Hab as (i & Hi & Hi'). destruct (H2 i a b Hi Hi') as [X Y]. replace (b * 2) with (b + b) by lia. replace (b + a) with (a + b) by lia. auto. }
    pose proof (downs_keys R L (key_at 2 (L * R - 1)) rs (pairs dims) 0 0 H W) as [_ Hk]. pose proof (downs_core R L (key_at 2 (L * R - 1)) rs (pairs dims) 0 0 H W HL) as Hc.
    set (D := down_levels R L (key_at 2 (L * R - 1)) rs 0 0 H W (pairs dims)) in *. destruct D as [ds [[i h] w]]. cbn [fst snd] in *.
    assert (HdsL : length (concat ds) = L * R - 1).
    { transitivity (length (dcore R (pairs dims))); [rewrite <- Hc, map_length; reflexivity|]. rewrite dcore_length, HL by assumption. 
      replace (S (R - 2)) with (R - 1) by lia. nia. }
    rewrite (proj2 (mapM_blocks ds ds)).
    2:{ split; [reflexivity|]. apply block_ok_strip. rewrite Hc. apply dcore_ok. unfold dims. apply pairs_Forall. intros a b Hab. apply Hall in Hab. cbn [fst snd]. tauto. }
    cbn [bind]. rewrite Hk, HdsL. simpl Nat.add. rewrite Nat.eqb_refl. cbn [negb].
    assert (Hmid : norm_ok (last dims 0)).
    { apply H1. unfold dims. assert (X := @app_removelast_last nat (hidden :: map (fun m => hidden * m) mults) 0 ltac:(discriminate)).
      rewrite X at 2. apply in_or_app. right. left. reflexivity. }
    rewrite (proj2 (make_block_spec _ _)) by (split; [reflexivity|]; split; [exact Hmid | split; [exact Hmid | reflexivity]]). cbn [bind].
    rewrite (proj2 (make_block_spec _ _)) by (split; [reflexivity|]; split; [exact Hmid | split; [exact Hmid | reflexivity]]). cbn [bind].
    pose proof (ups_keys R L (key_at 5 (L * (R + 1) - 1)) rs (rev (pairs dims)) 0 0 h w) as [_ Hku].
    pose proof (ups_core R L (key_at 5 (L * (R + 1) - 1)) rs (pairs dims) 0 h w HL) as Hcu.
    set (U := up_levels R L (key_at 5 (L * (R + 1) - 1)) rs 0 0 h w (rev (pairs dims))) in *. destruct U as [us j]. cbn [fst snd] in *.
    assert (HusL : length (concat us) = L * (R + 1) - 1).
    { transitivity (length (ucore R (pairs dims))); [rewrite <- Hcu, map_length; reflexivity|]. rewrite ucore_length, HL by assumption. 
      replace (S (R - 1)) with R by lia. nia. }
    rewrite (proj2 (mapM_blocks us us)).
    2:{ split; [reflexivity|]. apply block_ok_strip. rewrite Hcu. apply ucore_ok; [assumption|]. unfold dims. apply pairs_Forall. intros a b Hab. apply Hall in Hab. cbn [fst snd]. tauto. }
    cbn [bind]. rewrite Hku, HusL. simpl Nat.add. rewrite Nat.eqb_refl. cbn [negb].
    destruct (proj2 (group_norm_spec hidden) (conj Hh Hdiv)) as [t ->]. cbn [bind]. eexists. reflexivity.
Qed.
Print Assumptions C125_make.

(** Multiples of 32 always do. *)
Lemma norm_ok_32 k : 0 < k -> norm_ok (32 * k).
Proof.
  intros Hk. split; [lia|]. replace (32 * k) with (8 * k * 4) at 1 by lia. rewrite Nat.div_mul by lia.
  destruct (le_lt_dec 4 k) as [H4|H4]; [rewrite Nat.min_r by lia; exists k; lia|].
  rewrite Nat.min_l by lia. exists 4. lia.
Qed.
Theorem C125_make_32 : forall k data mults R H W rs bg dr, 0 < k -> mults <> [] -> Forall (lt 0) mults -> 2 <= R ->
  exists u, make_unet (32 * k) data mults R H W rs bg dr = Ok u.
Proof.
  intros k data mults R H W rs bg dr Hk Hm Hpos HR. apply C125_make.
  assert (X : forall d, In d (widths (32 * k) mults) -> exists j, 0 < j /\ d = 32 * j).
  { intros d [<- | Hd]; [exists k; auto|]. apply in_map_iff in Hd as (m & <- & Hin). rewrite Forall_forall in Hpos. apply Hpos in Hin.
    exists (k * m). split; [nia | ring]. }
  split; [assumption|]. split; [assumption|]. split.
  - intros d Hd. apply X in Hd as (j & Hj & ->). apply (norm_ok_32 j Hj).
  - intros i a b Ha Hb. apply nth_error_In, X in Ha as (ja & Hja & ->). apply nth_error_In, X in Hb as (jb & Hjb & ->).
    rewrite <- !Nat.mul_add_distr_l. split; apply norm_ok_32; lia.
Qed.
Print Assumptions C125_make_32.

Example make_example : exists u, make_unet 64 1 [1; 2; 4; 8] 2 28 28 [16] false true = Ok u.
Proof. apply (C125_make_32 2); [lia | discriminate | repeat constructor | lia]. Qed.
Example make_fails : make_unet 64 1 [1; 2] 1 28 28 [16] false true = Err AssertionError.
Proof. vm_compute. reflexivity. Qed.

(** A call: the output has the shape of the input if both sizes are multiples of [2 ^ (levels - 1)], and it fails otherwise. The skip connections
    always fit in their channels and all are used. *)
Theorem C125_call : forall hidden data mults R H W rs bg dr u key h w,
  make_unet hidden data mults R H W rs bg dr = Ok u -> Nat.Even hidden -> 0 < h -> 0 < w -> dr = false \/ key <> None ->
  (Nat.divide (2 ^ (length mults - 1)) h /\ Nat.divide (2 ^ (length mults - 1)) w -> exists ks, call_unet u key (data, h, w) = Ok ((data, h, w), ks))
  /\ (~ (Nat.divide (2 ^ (length mults - 1)) h /\ Nat.divide (2 ^ (length mults - 1)) w) -> call_unet u key (data, h, w) = Err TypeError).
Proof.
  intros hidden data mults R H W rs bg dr u key h w Hu Heven Hh Hw Hkey.
  apply make_unet_inv in Hu. cbn zeta in Hu. set (dims := hidden :: _) in *. set (L := length mults) in *.
  destruct Hu as (Hm & HR & -> & _ & _ & _ & _ & _).
  assert (HL : length (pairs dims) = L) by (unfold dims; rewrite pairs_length, map_length; reflexivity).
  unfold call_unet. cbn [u_hidden u_data u_biggan u_drop u_downs u_mids u_ups].
  destruct Heven as [m ->]. rewrite half_even, Nat.eqb_refl. cbn [negb]. rewrite Nat.eqb_refl. cbn [negb].
  set (hid := 2 * m) in *. set (mid := last dims 0).
  set (ds := concat (fst (down_levels _ _ _ _ _ _ _ _ _))) in *. set (us := concat (fst (up_levels _ _ _ _ _ _ _ _ _))) in *.
  set (ms := [mk_block mid mid false false true [3]; mk_block mid mid false false false [4]]).
  assert (E : forall (K : state -> res (shape * list (option (list nat)))),
    (st1 <- steps (down_step bg dr) ds ((hid, h, w), [(hid, h, w)], key, []) ;; st2 <- steps (mid_step bg dr) ms st1 ;; st3 <- steps (up_step bg dr) us st2 ;; K st3)
    = bind (rmap (lift (length ds + length ms + length us) key []) (if divs (L - 1) h && divs (L - 1) w then Ok ((hid, h, w), []) else Err TypeError)) K).
  { intros K. transitivity (bind (st1 <- steps (down_step bg dr) ds ((hid, h, w), [(hid, h, w)], key, []) ;; st2 <- steps (mid_step bg dr) ms st1 ;; steps (up_step bg dr) us st2) K).
    - destruct (steps (down_step bg dr) ds _); simpl; [|reflexivity]. destruct (mid_step bg dr _ a); simpl; [|reflexivity]. destruct (mid_step bg dr _ a0); reflexivity.
    - rewrite runs_lift by assumption. f_equal. f_equal. rewrite sruns_strip. unfold ds, us. rewrite downs_core, ups_core by assumption.
      change (map strip ms) with [plain mid mid; plain mid mid]. unfold mid, dims. rewrite <- (pairs_final hid). fold dims.
      rewrite body; try assumption; [rewrite HL; reflexivity | intros X; rewrite X in HL; simpl in HL; unfold L in HL; destruct mults; [congruence | discriminate] | unfold dims; apply pairs_chain]. }
  rewrite E. clear E. rewrite <- !divs_spec. destruct (divs (L - 1) h), (divs (L - 1) w); cbn [andb rmap bind].
  2-4: split; [intros [X Y]; discriminate | reflexivity].
  split; [|intros X; exfalso; apply X; auto]. intros _. unfold lift. cbn [fst snd]. cbn [length]. rewrite Nat.eqb_refl. cbn [negb]. rewrite Nat.eqb_refl. cbn [negb].
  eexists. reflexivity.
Qed.
Print Assumptions C125_call.

Example call_example : exists u ks, make_unet 32 3 [1; 2] 2 28 28 [14] true true = Ok u /\ call_unet u (Some []) (3, 6, 10) = Ok ((3, 6, 10), ks)
  /\ call_unet u (Some []) (3, 6, 9) = Err TypeError.
Proof. vm_compute. do 2 eexists. split; [reflexivity|]. split; reflexivity. Qed.

(** Odd widths are only found to be wrong at the call, as is a missing key. *)
Theorem C125_odd : forall hidden data mults R H W rs bg dr u key y,
  make_unet hidden data mults R H W rs bg dr = Ok u -> Nat.Odd hidden -> call_unet u key y = Err TypeError.
Proof.
  intros hidden data mults R H W rs bg dr u key y Hu [m ->]. apply make_unet_inv in Hu. cbn zeta in Hu. destruct Hu as (_ & _ & -> & _).
  unfold call_unet. cbn [u_hidden]. rewrite half_odd. replace (2 * m =? 2 * m + 1) with false by (symmetry; apply Nat.eqb_neq; lia). reflexivity.
Qed.
Print Assumptions C125_odd.
Example odd_example : exists u, make_unet 5 1 [1] 2 4 4 [] false false = Ok u.
Proof. vm_compute. eexists. reflexivity. Qed.

Theorem C125_no_key : forall hidden data mults R H W rs bg u h w,
  make_unet hidden data mults R H W rs bg true = Ok u -> Nat.Even hidden -> call_unet u None (data, h, w) = Err RuntimeError.
Proof.
  intros hidden data mults R H W rs bg u h w Hu [m Hm]. apply make_unet_inv in Hu. cbn zeta in Hu. set (dims := hidden :: _) in *. set (L := length mults) in *.
  destruct Hu as (Hmu & HR & -> & _).
  assert (HL : length (pairs dims) = L) by (unfold dims; rewrite pairs_length, map_length; reflexivity).
  unfold call_unet. cbn [u_hidden u_data u_biggan u_drop u_downs u_mids u_ups].
  rewrite Hm at 1 2. rewrite half_even, Nat.eqb_refl. cbn [negb]. rewrite Nat.eqb_refl. cbn [negb].
  destruct mults as [|m0 mults]; [congruence|]. unfold dims at 1. cbn [map]. rewrite pairs_cons. cbn [down_levels]. set (lv := down_level _ _ _ _ _ _ _).
  destruct (down_levels _ _ _ _ 1 _ _ _ _) as [r st]. cbn [fst concat]. subst lv. unfold down_level. cbn [app steps]. unfold down_step at 1. cbn [split_key].
  unfold call_block. cbn [din bup bdown]. rewrite Nat.eqb_refl. cbn [negb bind]. reflexivity.
Qed.
Print Assumptions C125_no_key.

Lemma NoDup_map_in {A B} (f : A -> B) : forall l, (forall x y, In x l -> In y l -> f x = f y -> x = y) -> NoDup l -> NoDup (map f l).
Proof.
  induction l as [|a l IH]; intros Hf Hn; simpl; [constructor|]. inversion Hn. subst. constructor.
  - intros X. apply in_map_iff in X as (b & E & Hb). apply Hf in E; [subst; contradiction | right; assumption | left; reflexivity].
  - apply IH; [|assumption]. intros x y Hx Hy. apply Hf; right; assumption.
Qed.
(** Construction gives no key twice: neither to two blocks, nor to a block and one of the other layers (keys 0, 1 and 6 of the seven). *)
Theorem C125_make_keys : forall hidden data mults R H W rs bg dr u,
  make_unet hidden data mults R H W rs bg dr = Ok u ->
  NoDup ([0] :: [1] :: [6] :: map bkey (concat (u_downs u) ++ u_mids u ++ concat (u_ups u))).
Proof.
  intros hidden data mults R H W rs bg dr u Hu. apply make_unet_inv in Hu. cbn zeta in Hu. set (dims := hidden :: _) in *. set (L := length mults) in *.
  destruct Hu as (Hmu & HR & -> & HD & HU & _). cbn [u_downs u_mids u_ups].
  pose proof (downs_keys R L (key_at 2 (L * R - 1)) rs (pairs dims) 0 0 H W) as [Hk _].
  pose proof (ups_keys R L (key_at 5 (L * (R + 1) - 1)) rs (rev (pairs dims)) 0 0 (H / 2 ^ (L - 1)) (W / 2 ^ (L - 1))) as [Hku _].
  rewrite HD in Hk. rewrite HU in Hku. rewrite !map_app, Hk, Hku. clear Hk Hku HD HU. cbn [map bkey].
  assert (Hin : forall j n x, In x (map (key_at j n) (seq 0 n)) -> exists i, x = [j; i]).
  { intros j n x Hx. apply in_map_iff in Hx as (i & <- & _). unfold key_at. eauto. }
  assert (Hnd : forall j n, NoDup (map (key_at j n) (seq 0 n))).
  { intros j n. apply NoDup_map_in; [|apply seq_NoDup]. intros x y Hx Hy. apply in_seq in Hx, Hy. unfold key_at. intros E. inversion E. lia. }
  set (A := map (key_at 2 _) _) in *. set (B := map (key_at 5 _) _) in *.
  assert (HA : forall x, In x A -> exists i, x = [2; i]) by (apply Hin). assert (HB : forall x, In x B -> exists i, x = [5; i]) by (apply Hin).
  assert (NA : NoDup A) by apply Hnd. assert (NB : NoDup B) by apply Hnd. clearbody A B. clear - HA HB NA NB.
  assert (N2 : NoDup ([3] :: [4] :: B)).
  { constructor; [intros [X|X]; [discriminate | apply HB in X as [i X]; discriminate]|]. constructor; [intros X; apply HB in X as [i X]; discriminate | assumption]. }
  assert (N3 : NoDup (A ++ [[3]; [4]] ++ B)).
  { clear NB. induction NA as [|a A Ha NA IH]; [assumption|]. simpl. constructor; [|apply IH; intros; apply HA; right; assumption].
    intros X. apply in_app_iff in X as [X|X]; [contradiction|]. destruct (HA a (or_introl eq_refl)) as [i ->].
    destruct X as [X|[X|X]]; [discriminate | discriminate | apply HB in X as [i' X]; discriminate]. }
  assert (Hn : forall j, j = 0 \/ j = 1 \/ j = 6 -> ~ In [j] (A ++ [[3]; [4]] ++ B)).
  { intros j Hj X. apply in_app_iff in X as [X|[X|[X|X]]]; [apply HA in X as [i X]; discriminate | | | apply HB in X as [i X]; discriminate]; inversion X; lia. }
  constructor; [|constructor; [|constructor; [|assumption]]].
  - intros [X|[X|X]]; [discriminate | discriminate | apply (Hn 0) in X; auto].
  - intros [X|X]; [discriminate | apply (Hn 1) in X; auto].
  - intros X. apply (Hn 6) in X; auto.
Qed.
Print Assumptions C125_make_keys.

(** A call with a key gives every block its own key, none of them the call's. *)
Lemma adv_some : forall n k u, snd (adv n (Some k) u) = u ++ map (fun i => Some (k ++ repeat 0 i ++ [1])) (seq 0 n).
Proof.
  induction n; intros k u; [simpl; rewrite app_nil_r; reflexivity|]. cbn [adv split_key fst snd]. rewrite IHn, <- app_assoc. f_equal. simpl. f_equal.
  rewrite <- seq_shift, map_map. apply map_ext. intros i. rewrite <- app_assoc. reflexivity.
Qed.
Theorem C125_call_keys : forall hidden data mults R H W rs bg dr u k y s used,
  make_unet hidden data mults R H W rs bg dr = Ok u -> call_unet u (Some k) y = Ok (s, used) ->
  length used = length (concat (u_downs u) ++ u_mids u ++ concat (u_ups u)) /\ NoDup used /\ Forall (fun x => exists l, l <> [] /\ x = Some (k ++ l)) used.
Proof.
  intros hidden data mults R H W rs bg dr u k [[c h] w] s used _ Hc. unfold call_unet in Hc.
  destruct (negb _); [discriminate|]. destruct (negb _); [discriminate|].
  set (bg' := u_biggan u) in *. set (dr' := u_drop u) in *. set (ds := concat (u_downs u)) in *. set (ms := u_mids u) in *. set (us := concat (u_ups u)) in *.
  assert (exists st, (st1 <- steps (down_step bg' dr') ds ((u_hidden u, h, w), [(u_hidden u, h, w)], Some k, []) ;; st2 <- steps (mid_step bg' dr') ms st1 ;; steps (up_step bg' dr') us st2) = Ok st
    /\ snd st = used) as (st & E & <-).
  { apply bind_ok in Hc as (st1 & E1 & Hc). apply bind_ok in Hc as (st2 & E2 & Hc). apply bind_ok in Hc as (st3 & E3 & Hc).
    rewrite E1. simpl. rewrite E2. simpl. exists st3. split; [assumption|]. destruct st3 as [[[[[c' h'] w'] hs] k'] us']. destruct (negb _); [discriminate|]. destruct (negb _); [discriminate|].
    inversion Hc. reflexivity. }
  rewrite runs_lift in E by (right; discriminate). destruct (sruns _ _ _ _ _) as [[s0 hs0]|]; [|discriminate]. simpl in E. inversion E. subst st. clear E. cbn [snd lift].
  rewrite adv_some. cbn [app]. rewrite map_length, seq_length, !app_length, Nat.add_assoc. split; [reflexivity|]. split.
  - apply FinFun.Injective_map_NoDup; [|apply seq_NoDup]. intros i j X. inversion X as [Y]. apply app_inv_head in Y.
    apply (f_equal (@length nat)) in Y. rewrite !app_length, !repeat_length in Y. simpl in Y. lia.
  - apply Forall_forall. intros x Hx. apply in_map_iff in Hx as (i & <- & _). exists (repeat 0 i ++ [1]). split; [destruct i; discriminate | reflexivity].
Qed.
Print Assumptions C125_call_keys.

(** Attention: at data sizes a call accepts, level [l] has an attention layer in each of its blocks, downward and upward, exactly if both sizes at that
    level are listed. *)
Theorem C125_attention : forall hidden data mults R H W rs bg dr u l b,
  make_unet hidden data mults R H W rs bg dr = Ok u ->
  Nat.divide (2 ^ (length mults - 1)) H -> Nat.divide (2 ^ (length mults - 1)) W -> l < length mults ->
  (exists lv, nth_error (u_downs u) l = Some lv /\ In b lv) \/ (exists lv, nth_error (u_ups u) (length mults - 1 - l) = Some lv /\ In b lv) ->
  battn b = true <-> In (H / 2 ^ l) rs /\ In (W / 2 ^ l) rs.
Proof.
  intros hidden data mults R H W rs bg dr u l b Hu HH HW Hl Hb. apply make_unet_inv in Hu. cbn zeta in Hu. set (dims := hidden :: _) in *. set (L := length mults) in *.
  destruct Hu as (_ & _ & -> & _). cbn [u_downs u_ups] in Hb. rewrite <- at_res_spec.
  assert (HL : length (pairs dims) = L) by (unfold dims; rewrite pairs_length, map_length; reflexivity).
  assert (Hp : forall X, Nat.divide (2 ^ (L - 1)) X -> X / 2 ^ (L - 1) * 2 ^ (L - 1 - l) = X / 2 ^ l).
  { intros X [q ->]. rewrite Nat.div_mul by (apply Nat.pow_nonzero; discriminate). replace (L - 1) with (L - 1 - l + l) at 2 by lia.
    rewrite Nat.pow_add_r, Nat.mul_assoc, Nat.div_mul by (apply Nat.pow_nonzero; discriminate). reflexivity. }
  destruct Hb as [(lv & Hlv & Hb) | (lv & Hlv & Hb)].
  - rewrite (downs_attn _ _ _ _ _ 0 0 _ _ HL l lv b Hlv Hb). reflexivity.
  - rewrite (ups_attn _ _ _ _ _ 0 0 _ _ (eq_trans (rev_length (pairs dims)) HL) _ lv b Hlv Hb). rewrite !Hp by assumption. reflexivity.
Qed.
Print Assumptions C125_attention.
Example attention_example : exists u, make_unet 32 3 [1; 2] 2 28 28 [14] true true = Ok u
  /\ map (map battn) (u_downs u) = [[false; false]; [true]] /\ map (map battn) (u_ups u) = [[true; true; true]; [false; false]].
Proof. vm_compute. eexists. split; [reflexivity|]. split; reflexivity. Qed.
