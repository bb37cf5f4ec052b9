(** C102: training loops train the inexact arrays of the model and nothing else. C103: training with frozen layers. *)
From Verif Require Import Filters_Proofs Tree_Rel Prim_Spec Prim_Proofs Leafwise Ad_Model Ad_Props Train_Model Train_Spec.

Section Facts.
  Context {L : Type}.
  Variable inexact : L -> bool.
  Notation T := (tree L).
  Notation dyn := (dynp inexact).
  Notation sta := (stap inexact).
  Notation param := (is_param inexact).

  Lemma param_leaf ws : Forall param ws -> Forall is_Leaf ws.
  Proof. intros H. induction H as [|w ws (a & -> & _) _ IH]; constructor; [eexists; reflexivity|exact IH]. Qed.
  Lemma wrt_param (x : T) : Forall param (wrt inexact x).
  Proof.
    unfold wrt. rewrite Forall_forall. intros t Ht. apply filter_In in Ht as [Hi Ho].
    pose proof (leaves_are_Leaf x) as HL. rewrite Forall_forall in HL. destruct (HL t Hi) as [a ->]. exists a. auto.
  Qed.

  (** New parameters in [x]: same structure, same other leaves. *)
  Lemma fills_parts :
    (forall (x : T) ws y, fills inexact Leaf x ws y -> Forall param ws ->
       treedef no_leaf (dyn y) = treedef no_leaf (dyn x) /\ sta y = sta x /\ leaves no_leaf (dyn y) = ws) /\
    (forall (cs : list T) ws ds, fills_list inexact Leaf cs ws ds -> Forall param ws ->
       map (treedef no_leaf) (map dyn ds) = map (treedef no_leaf) (map dyn cs) /\ map sta ds = map sta cs /\
       concat (map (leaves no_leaf) (map dyn ds)) = ws).
  Proof.
    apply fills_mut.
    - intros a v Ha Hw. inversion Hw as [|? ? (b & -> & Hb) _]; subst. unfold dynp, stap. cbn. rewrite Ha, Hb. auto.
    - intros a Ha _. unfold dynp, stap. cbn. rewrite Ha. auto.
    - intros _. auto.
    - intros k cs vs ds _ IH Hw. destruct (IH Hw) as (H1 & H2 & H3).
      change (dyn (Node k ds)) with (Node k (map dyn ds)). change (dyn (Node k cs)) with (Node k (map dyn cs)).
      change (sta (Node k ds)) with (Node k (map sta ds)). change (sta (Node k cs)) with (Node k (map sta cs)).
      cbn [treedef no_leaf leaves]. rewrite H1, H2, H3. auto.
    - intros _. auto.
    - intros c cs v vs d ds _ IH1 _ IH2 Hw. apply Forall_app in Hw as [Hw1 Hw2].
      destruct (IH1 Hw1) as (A1 & A2 & A3). destruct (IH2 Hw2) as (B1 & B2 & B3). cbn [map concat].
      rewrite A1, A2, A3, B1, B2, B3. auto.
  Qed.
  Lemma fills_trans (x y z : T) ws vs : fills inexact Leaf x ws y -> Forall param ws ->
    fills inexact Leaf y vs z -> Forall param vs -> fills inexact Leaf x vs z.
  Proof.
    intros H Hw Hy Hv. destruct (proj1 fills_parts _ _ _ H Hw) as (E1 & E2 & E3).
    assert (Hl : length vs = count inexact x).
    { pose proof (proj1 (fills_count _ _) _ _ _ Hy) as H1. pose proof (proj1 (fills_count _ _) _ _ _ H) as H2.
      rewrite dynp_leaves in E3. unfold count in *. rewrite <- H2, H1, <- E3. reflexivity. }
    destruct (fills_exists inexact Leaf x vs Hl) as [z' Hz].
    pose proof (unpack_fills _ _ _ _ Hz (param_leaf _ Hv)) as U1. pose proof (unpack_fills _ _ _ _ Hy (param_leaf _ Hv)) as U2.
    rewrite E1, E2 in U2. assert (z' = z) as <- by congruence. exact Hz.
  Qed.
  Lemma laid_parts :
    (forall (x : T) gs t, laid_out inexact x gs t -> Forall is_Leaf gs ->
       treedef no_leaf t = treedef no_leaf (dyn x) /\ leaves no_leaf t = gs) /\
    (forall (cs : list T) gs ts, fills_list inexact (fun _ => TNone) cs gs ts -> Forall is_Leaf gs ->
       map (treedef no_leaf) ts = map (treedef no_leaf) (map dyn cs) /\ concat (map (leaves no_leaf) ts) = gs).
  Proof.
    unfold laid_out. apply fills_mut.
    - intros a v Ha Hw. inversion Hw as [|? ? (b & ->) _]; subst. unfold dynp. cbn. rewrite Ha. auto.
    - intros a Ha _. unfold dynp. cbn. rewrite Ha. auto.
    - intros _. auto.
    - intros k cs vs ds _ IH Hw. destruct (IH Hw) as (H1 & H2).
      change (dyn (Node k cs)) with (Node k (map dyn cs)). cbn [treedef no_leaf leaves]. rewrite H1, H2. auto.
    - intros _. auto.
    - intros c cs v vs d ds _ IH1 _ IH2 Hw. apply Forall_app in Hw as [Hw1 Hw2].
      destruct (IH1 Hw1) as (A1 & A2). destruct (IH2 Hw2) as (B1 & B2). cbn [map concat]. rewrite A1, A2, B1, B2. auto.
  Qed.

  (** Applying updates. *)
  Variable add : T -> T -> res T.
  Lemma adds_app : forall ws us ws' us', length ws = length us ->
    adds add (ws ++ ws') (us ++ us') = (a <- adds add ws us ;; b <- adds add ws' us' ;; Ok (a ++ b)).
  Proof.
    induction ws as [|w ws IH]; intros [|u us] ws' us' H; try discriminate.
    - cbn. destruct (adds add ws' us'); reflexivity.
    - injection H as H. cbn [app adds]. rewrite (IH us ws' us' H). destruct (add w u) as [x|e]; cbn [bind]; [|reflexivity].
      destruct (adds add ws us) as [xs|e]; cbn [bind]; [|reflexivity]. destruct (adds add ws' us'); reflexivity.
  Qed.
  Lemma adds_param : add_law inexact add -> forall ws us xs, Forall param ws -> Forall is_Leaf us -> length us = length ws ->
    adds add ws us = Ok xs -> Forall param xs /\ length xs = length ws.
  Proof.
    intros HA. induction ws as [|w ws IH]; intros [|u us] xs Hw Hu Hl H; try discriminate.
    - injection H as <-. auto.
    - cbn [adds] in H. inversion Hw; inversion Hu; subst. apply bind_ok in H as (y & Hy & H). apply bind_ok in H as (ys & Hys & H).
      injection H as <-. injection Hl as Hl. destruct (IH us ys) as [I1 I2]; auto. split; [constructor; eauto|cbn; auto].
  Qed.
  Lemma apply_laid :
    (forall (x : T) us u, laid_out inexact x us u -> Forall is_Leaf us ->
       match adds add (wrt inexact x) us with
       | Ok ws => exists y, fills inexact Leaf x ws y /\ apply_updates add x u = Ok y
       | Err e => apply_updates add x u = Err e
       end) /\
    (forall (cs : list T) us ts, fills_list inexact (fun _ => TNone) cs us ts -> Forall is_Leaf us ->
       match adds add (concat (map (wrt inexact) cs)) us with
       | Ok ws => exists ds, fills_list inexact Leaf cs ws ds /\ zipM (tmap2 is_none (apply_update add)) ts cs = Ok ds
       | Err e => zipM (tmap2 is_none (apply_update add)) ts cs = Err e
       end).
  Proof.
    unfold laid_out, apply_updates. apply fills_mut.
    - intros a v Ha Hw. inversion Hw as [|? ? (b & ->) _]; subst. unfold wrt. cbn. rewrite Ha. cbn.
      destruct (add (Leaf a) (Leaf b)) as [y|e]; cbn; [|reflexivity]. exists y. split; [constructor; exact Ha|reflexivity].
    - intros a Ha _. unfold wrt. cbn. rewrite Ha. cbn. exists (Leaf a). split; [constructor; exact Ha|reflexivity].
    - intros _. cbn. exists TNone. split; [constructor|reflexivity].
    - intros k cs us ts _ IH Hw. specialize (IH Hw).
      replace (wrt inexact (Node k cs)) with (concat (map (wrt inexact) cs)).
      2: { unfold wrt. cbn [leaves no_leaf]. clear. induction cs as [|c cs IH]; [reflexivity|]. cbn. rewrite filter_app, IH. reflexivity. }
      cbn [tmap2 is_none]. rewrite Nat.eqb_refl. destruct (adds add _ us) as [ws|e].
      + destruct IH as (ds & H1 & H2). exists (Node k ds). split; [constructor; exact H1|]. rewrite H2. reflexivity.
      + rewrite IH. reflexivity.
    - intros _. cbn. exists []. split; [constructor|reflexivity].
    - intros c cs v vs d ds Hc IH1 Hcs IH2 Hw. apply Forall_app in Hw as [Hw1 Hw2]. specialize (IH1 Hw1). specialize (IH2 Hw2).
      cbn [map concat zipM]. rewrite adds_app.
      2: { rewrite (proj1 (fills_count _ _) _ _ _ Hc). reflexivity. }
      destruct (adds add (wrt inexact c) v) as [a|e]; cbn [bind].
      + destruct IH1 as (y & Y1 & Y2). rewrite Y2. cbn [bind]. destruct (adds add _ vs) as [b|e]; cbn [bind].
        * destruct IH2 as (ys & Z1 & Z2). rewrite Z2. cbn [bind]. exists (y :: ys). split; [constructor; assumption|reflexivity].
        * rewrite IH2. reflexivity.
      + rewrite IH1. reflexivity.
  Qed.

  (** Positions. *)
  Lemma fills_positions :
    (forall (x : T) ws y, fills inexact Leaf x ws y -> Forall param ws -> treedef no_leaf y = treedef no_leaf x /\
       forall p a, sub x p = Some (Leaf a) -> if inexact a then exists b, sub y p = Some (Leaf b) /\ inexact b = true
                                              else sub y p = Some (Leaf a)) /\
    (forall (cs : list T) ws ds, fills_list inexact Leaf cs ws ds -> Forall param ws ->
       map (treedef no_leaf) ds = map (treedef no_leaf) cs /\
       forall i c p a, nth_error cs i = Some c -> sub c p = Some (Leaf a) ->
         exists d, nth_error ds i = Some d /\
           if inexact a then exists b, sub d p = Some (Leaf b) /\ inexact b = true else sub d p = Some (Leaf a)).
  Proof.
    apply fills_mut.
    - intros a v Ha Hw. inversion Hw as [|? ? (b & -> & Hb) _]; subst. split; [reflexivity|].
      intros [|i p] a' E; [|discriminate]. injection E as <-. rewrite Ha. exists b. auto.
    - intros a Ha _. split; [reflexivity|]. intros [|i p] a' E; [|discriminate]. injection E as <-. rewrite Ha. reflexivity.
    - intros _. split; [reflexivity|]. intros [|i p] a' E; discriminate.
    - intros k cs vs ds _ IH Hw. destruct (IH Hw) as [H1 H2]. split; [cbn [treedef no_leaf]; rewrite H1; reflexivity|].
      intros [|i p] a E; [discriminate|]. cbn [sub] in *. destruct (nth_error cs i) as [c|] eqn:Ec; [|discriminate].
      destruct (H2 i c p a Ec E) as (d & -> & Hd). exact Hd.
    - intros _. split; [reflexivity|]. intros [|i] c p a E; discriminate.
    - intros c cs v vs d ds _ IH1 _ IH2 Hw. apply Forall_app in Hw as [Hw1 Hw2].
      destruct (IH1 Hw1) as [A1 A2]. destruct (IH2 Hw2) as [B1 B2]. split; [cbn; rewrite A1, B1; reflexivity|].
      intros [|i] c' p a E E'; cbn [nth_error] in *; [|eauto]. injection E as <-. exists d. split; [reflexivity|]. apply A2. exact E'.
  Qed.

  Lemma filter_dynp g (x : T) : eqx_filter no_leaf TNone false x (Leaf (SCall (on_leaf g))) = Ok (dynp g x).
  Proof. rewrite filter_fused. unfold dynp. cbn [tmap2 no_leaf sel_leaf]. f_equal. rewrite !tmap_lw. apply lw_ext. intros a. cbn. destruct (g a); reflexivity. Qed.
End Facts.

Section Train.
  Context {L St : Type}.
  Variable inexact : L -> bool.
  Notation T := (tree L).
  Variable VG : bool -> (list T -> res T) -> list T -> res (T * list T).
  Variable opt : list T -> St -> option (list T) -> res (list T * St).
  Variable add : T -> T -> res T.
  Variable kwargs : T.
  Hypothesis HVG : grad_law inexact VG.
  Hypothesis Hopt : opt_law opt.
  Hypothesis Hadd : add_law inexact add.
  Notation param := (is_param inexact).

  (** The loss as a function of the parameters of [x]. *)
  Definition on_params (f : T -> res T) (x : T) (ws : list T) : res T :=
    d <- unflatten (treedef no_leaf (dynp inexact x)) ws ;;
    p <- eqx_combine no_leaf [d; stap inexact x] ;; f p.
  Lemma grad_at fn x ws y aux args : fills inexact Leaf x ws y -> Forall param ws ->
    match VG aux (on_params (fun m => fn m (Node 0 [Node 0 args; kwargs])) x) ws with
    | Ok (v, gs) => exists g, laid_out inexact y gs g /\ Forall is_Leaf gs /\
        filter_value_and_grad inexact VG aux fn (y :: args) kwargs = Ok (v, g)
    | Err e => filter_value_and_grad inexact VG aux fn (y :: args) kwargs = Err e
    end.
  Proof.
    intros H Hw. destruct (proj1 (fills_parts inexact) _ _ _ H Hw) as (E1 & E2 & E3).
    unfold filter_value_and_grad. rewrite partition_pred. cbn [bind]. unfold jax_value_and_grad. rewrite E1, E2, E3.
    change (fun ws0 => y0 <- unflatten (treedef no_leaf (dynp inexact x)) ws0 ;;
      x' <- eqx_combine no_leaf [y0; stap inexact x] ;; fn x' (Node 0 [Node 0 args; kwargs]))
      with (on_params (fun m => fn m (Node 0 [Node 0 args; kwargs])) x).
    destruct (VG aux _ ws) as [[v gs]|e] eqn:E; cbn [bind]; [|reflexivity].
    destruct (HVG _ _ _ _ _ Hw E) as [Hl HL].
    assert (Hc : length gs = length (wrt inexact y)).
    { unfold wrt. rewrite <- dynp_leaves, E3. exact Hl. }
    destruct (laid_out_exists inexact y gs Hc) as [g Hg]. exists g. split; [exact Hg|]. split; [exact HL|].
    rewrite <- E1, (unflatten_dyn _ _ _ _ Hg). reflexivity.
  Qed.
  Lemma update_at y gs g s ps : laid_out inexact y gs g -> Forall is_Leaf gs ->
    (match ps with None => True | Some p => treedef no_leaf p = treedef no_leaf (dynp inexact y) end) ->
    match opt gs s (option_map (leaves no_leaf) ps) with
    | Ok (us, s') => exists u, laid_out inexact y us u /\ Forall is_Leaf us /\ length us = length gs /\
        opt_update opt g s ps = Ok (u, s')
    | Err e => opt_update opt g s ps = Err e
    end.
  Proof.
    intros Hg HL Hp. destruct (proj1 (laid_parts inexact) _ _ _ Hg HL) as [E1 E2]. unfold opt_update.
    assert (Ht : match ps with None => true | Some p => tdef_eqb (treedef no_leaf g) (treedef no_leaf p) end = true).
    { destruct ps as [p|]; [|reflexivity]. apply tdef_eqb_spec. congruence. }
    rewrite Ht, E2. destruct (opt gs s _) as [[us s']|e] eqn:E; cbn [bind]; [|reflexivity].
    destruct (Hopt _ _ _ _ _ E) as [Hl Hu].
    assert (Hc : length us = length (wrt inexact y)) by (rewrite Hl; apply (proj1 (fills_count _ _) _ _ _ Hg)).
    destruct (laid_out_exists inexact y us Hc) as [u Hu']. exists u. split; [exact Hu'|]. split; [exact Hu|]. split; [exact Hl|].
    rewrite E1, (unflatten_dyn _ _ _ _ Hu'). reflexivity.
  Qed.
  Lemma apply_at x ws y us u : fills inexact Leaf x ws y -> Forall param ws -> laid_out inexact y us u -> Forall is_Leaf us ->
    match adds add ws us with
    | Ok ws' => exists y', fills inexact Leaf x ws' y' /\ Forall param ws' /\ apply_updates add y u = Ok y'
    | Err e => apply_updates add y u = Err e
    end.
  Proof.
    intros H Hw Hu HL. destruct (proj1 (fills_parts inexact) _ _ _ H Hw) as (E1 & E2 & E3). rewrite dynp_leaves in E3.
    pose proof (proj1 (apply_laid inexact add) _ _ _ Hu HL) as A. unfold wrt in A. rewrite E3 in A.
    destruct (adds add ws us) as [ws'|e] eqn:E; [|exact A]. destruct A as (y' & Y1 & Y2).
    assert (Hl : length us = length ws).
    { rewrite (proj1 (fills_count _ _) _ _ _ Hu). unfold count. rewrite E3. reflexivity. }
    destruct (adds_param inexact add Hadd _ _ _ Hw HL Hl E) as [Hw' _].
    exists y'. split; [|auto]. eapply fills_trans; eauto.
  Qed.

  (** ** C102 *)
  (** Training a model, however nested and whatever else is in it, is training the list of its inexact arrays,
      with the loss as a function of them ([F]): the trained model is the old one with the trained arrays
      in place of the old, every other leaf being as it was. Exceptions are the same too. *)
  Theorem C102_training : forall loss (g : bool) model,
    exists F, (forall b, restricts inexact (fun m => loss m (Node 0 [Node 0 b; kwargs])) model (F b)) /\
      forall s data,
        match descend VG opt add F g (wrt inexact model) s data with
        | Ok (ws, s', vs) => exists model', fills inexact Leaf model ws model' /\
            train inexact VG opt add kwargs loss (if g then Some inexact else None) model s data = Ok (model', s', vs)
        | Err e => train inexact VG opt add kwargs loss (if g then Some inexact else None) model s data = Err e
        end.
  Proof.
    intros loss g x. exists (fun b => on_params (fun m => loss m (Node 0 [Node 0 b; kwargs])) x).
    split; [intros b; apply restricts_intro|].
    enough (G : forall data ws y s, fills inexact Leaf x ws y -> Forall param ws ->
      match descend VG opt add (fun b => on_params (fun m => loss m (Node 0 [Node 0 b; kwargs])) x) g ws s data with
      | Ok (ws', s', vs) => exists y', fills inexact Leaf x ws' y' /\
          train inexact VG opt add kwargs loss (if g then Some inexact else None) y s data = Ok (y', s', vs)
      | Err e => train inexact VG opt add kwargs loss (if g then Some inexact else None) y s data = Err e
      end).
    { intros s data. apply G; [apply fills_self|apply wrt_param]. }
    induction data as [|b data IH]; intros ws y s H Hw; [exists y; auto|].
    cbn [descend train]. unfold make_step. pose proof (grad_at loss x ws y false b H Hw) as A.
    destruct (VG false _ ws) as [[v gs]|e]; cbn [bind]; [|rewrite A; reflexivity].
    destruct A as (gt & G1 & G2 & ->). cbn [bind].
    destruct (proj1 (fills_parts inexact) _ _ _ H Hw) as (E1 & E2 & E3).
    assert (P : exists ps, params_of (if g then Some inexact else None) y = Ok ps /\
      match ps with None => True | Some p => treedef no_leaf p = treedef no_leaf (dynp inexact y) end /\
      option_map (leaves no_leaf) ps = if g then Some ws else None).
    { destruct g; cbn [params_of].
      - rewrite filter_dynp. cbn [rmap bind]. eexists. split; [reflexivity|]. cbn [option_map]. rewrite E3. auto.
      - eexists. split; [reflexivity|]. auto. }
    destruct P as (ps & P1 & P2 & P3). rewrite P1. cbn [bind].
    pose proof (update_at y gs gt s ps G1 G2 P2) as B. rewrite P3 in B.
    destruct (opt gs s _) as [[us s1]|e]; cbn [bind]; [|rewrite B; reflexivity].
    destruct B as (u & U1 & U2 & U3 & ->). cbn [bind].
    pose proof (apply_at x ws y us u H Hw U1 U2) as C.
    destruct (adds add ws us) as [ws1|e]; cbn [bind]; [|rewrite C; reflexivity].
    destruct C as (y1 & Y1 & Y2 & ->). cbn [bind]. specialize (IH ws1 y1 s1 Y1 Y2).
    destruct (descend _ _ _ _ _ ws1 s1 data) as [[[ws2 s2] vs]|e]; cbn [bind]; [|rewrite IH; reflexivity].
    destruct IH as (y2 & Z1 & ->). exists y2. auto.
  Qed.

  (** In terms of positions. *)
  Lemma descend_param F g : forall data ws s r, Forall param ws -> descend VG opt add F g ws s data = Ok r ->
    Forall param (fst (fst r)).
  Proof.
    induction data as [|b data IH]; intros ws s r Hw H; [injection H as <-; exact Hw|].
    cbn [descend] in H. apply bind_ok in H as ([v gs] & H1 & H). apply bind_ok in H as ([us s1] & H2 & H).
    apply bind_ok in H as (ws1 & H3 & H). apply bind_ok in H as ([[ws2 s2] vs] & H4 & H). injection H as <-.
    destruct (HVG _ _ _ _ _ Hw H1) as [Hl HL]. destruct (Hopt _ _ _ _ _ H2) as [Hl2 Hu].
    assert (Hw1 : Forall param ws1) by (eapply adds_param; eauto; congruence).
    apply (IH _ _ _ Hw1 H4).
  Qed.
  Theorem C102_other_leaves : forall loss (g : bool) model s data model' s' vs,
    train inexact VG opt add kwargs loss (if g then Some inexact else None) model s data = Ok (model', s', vs) ->
    treedef no_leaf model' = treedef no_leaf model /\ length vs = length data /\
    forall p a, sub model p = Some (Leaf a) ->
      if inexact a then exists b, sub model' p = Some (Leaf b) /\ inexact b = true else sub model' p = Some (Leaf a).
  Proof.
    intros loss g x s data x' s' vs H. destruct (C102_training loss g x) as (F & _ & HF). specialize (HF s data).
    destruct (descend VG opt add F g (wrt inexact x) s data) as [[[ws s2] vs2]|e] eqn:E; [|congruence].
    destruct HF as (y & Hy & Ht). assert (Ey : y = x') by congruence. assert (Ev : vs2 = vs) by congruence. subst y vs2.
    pose proof (descend_param _ _ _ _ _ _ (wrt_param inexact x) E) as Hw. cbn [fst] in Hw.
    destruct (proj1 (fills_positions inexact) _ _ _ Hy Hw) as [H1 H2]. split; [exact H1|]. split; [|exact H2].
    clear -E. revert E. generalize (wrt inexact x) as w, s as s0, ws, s2, vs. induction data as [|b data IH]; intros w s0 w' s1 l E.
    - injection E as <- <- <-. reflexivity.
    - cbn [descend] in E. apply bind_ok in E as ([v gs] & H1 & E). apply bind_ok in E as ([us s3] & H2 & E).
      apply bind_ok in E as (ws1 & H3 & E). apply bind_ok in E as ([[ws2 s4] vs1] & H4 & E). injection E as <- <- <-.
      cbn [length]. f_equal. eapply IH. exact H4.
  Qed.

  (** The optimiser must be given the inexact arrays. Given [eqx.filter(model, is_array)] instead (as in
      mnist.ipynb), a step is the same if all arrays are inexact, and otherwise a [ValueError]. *)
  Theorem C102_is_array : forall (is_arr : L -> bool) loss model s batch,
    (forall a, inexact a = true -> is_arr a = true) ->
    ((forall a, In (Leaf a) (leaves no_leaf model) -> is_arr a = true -> inexact a = true) ->
       make_step inexact VG opt add kwargs loss (Some is_arr) model s batch =
       make_step inexact VG opt add kwargs loss (Some inexact) model s batch) /\
    (forall a v grads, In (Leaf a) (leaves no_leaf model) -> is_arr a = true -> inexact a = false ->
       filter_value_and_grad inexact VG false loss (model :: batch) kwargs = Ok (v, grads) ->
       make_step inexact VG opt add kwargs loss (Some is_arr) model s batch = Err ValueError).
  Proof.
    intros is_arr loss x s batch Hi.
    assert (Hin : forall a, In (Leaf a) (leaves no_leaf x) <-> In a (labels x)).
    { intros a. rewrite leaves_labels, in_map_iff. split; [intros (b & E & Hb); congruence|eauto]. }
    split.
    - intros Ha. unfold make_step, params_of. rewrite !filter_dynp. replace (dynp is_arr x) with (dynp inexact x); [reflexivity|].
      unfold dynp. rewrite !tmap_lw. apply lw_ext_in. intros a Hl. cbn. apply Hin in Hl.
      destruct (is_arr a) eqn:E; [rewrite (Ha a Hl E); reflexivity|]. destruct (inexact a) eqn:E2; [|reflexivity].
      rewrite (Hi a E2) in E. discriminate.
    - intros a v gt Hl Ha Hn HV. unfold make_step, params_of. rewrite HV. cbn [bind]. rewrite filter_dynp. cbn [rmap bind].
      pose proof (grad_at loss x (wrt inexact x) x false batch (fills_self _ _) (wrt_param _ _)) as A. rewrite HV in A.
      destruct (VG false _ (wrt inexact x)) as [[v' gs]|e]; [|discriminate]. destruct A as (g' & G1 & G2 & E).
      assert (g' = gt) by congruence. subst g'. destruct (proj1 (laid_parts inexact) _ _ _ G1 G2) as [E1 _].
      unfold opt_update. rewrite E1. destruct (tdef_eqb _ _) eqn:Et; [|reflexivity]. exfalso. apply tdef_eqb_spec in Et.
      unfold dynp in Et. rewrite !tmap_lw in Et. apply treedef_lw_inv with (a := a) in Et; [|apply Hin; exact Hl].
      cbn in Et. rewrite Ha, Hn in Et. discriminate.
  Qed.

  (** With a state besides: it is passed on from step to step. *)
  Theorem C102_stateful : forall loss model,
    exists F, (forall st b, restricts inexact (fun m => loss m (Node 0 [Node 0 (st :: b); kwargs])) model (F st b)) /\
      forall state s data,
        match descend_st VG opt add F (wrt inexact model) state s data with
        | Ok (ws, state', s') => exists model', fills inexact Leaf model ws model' /\
            stateful_train inexact VG opt add kwargs loss model state s data = Ok (model', state', s')
        | Err e => stateful_train inexact VG opt add kwargs loss model state s data = Err e
        end.
  Proof.
    intros loss x. set (F := fun st b => on_params (fun m => loss m (Node 0 [Node 0 (st :: b); kwargs])) x). exists F.
    split; [intros st b; apply restricts_intro|].
    enough (G : forall data ws y st s, fills inexact Leaf x ws y -> Forall param ws ->
      match descend_st VG opt add F ws st s data with
      | Ok (ws', st', s') => exists y', fills inexact Leaf x ws' y' /\
          stateful_train inexact VG opt add kwargs loss y st s data = Ok (y', st', s')
      | Err e => stateful_train inexact VG opt add kwargs loss y st s data = Err e
      end).
    { intros st s data. apply G; [apply fills_self|apply wrt_param]. }
    induction data as [|b data IH]; intros ws y st s H Hw; [exists y; auto|].
    cbn [descend_st stateful_train]. unfold stateful_step, filter_grad.
    pose proof (grad_at loss x ws y true (st :: b) H Hw) as A. fold (F st b) in A.
    destruct (VG true (F st b) ws) as [[v gs]|e]; cbn [bind]; [|rewrite A; reflexivity].
    destruct A as (gt & G1 & G2 & ->). cbn [bind].
    destruct v as [a| |k [|v1 [|st1 [|? ?]]]]; try reflexivity. cbn [bind].
    pose proof (update_at y gs gt s None G1 G2 I) as B. cbn [option_map] in B.
    destruct (opt gs s None) as [[us s1]|e]; cbn [bind]; [|rewrite B; reflexivity].
    destruct B as (u & U1 & U2 & U3 & ->). cbn [bind].
    pose proof (apply_at x ws y us u H Hw U1 U2) as C.
    destruct (adds add ws us) as [ws1|e]; cbn [bind]; [|rewrite C; reflexivity].
    destruct C as (y1 & Y1 & Y2 & ->). cbn [bind]. exact (IH ws1 y1 st1 s1 Y1 Y2).
  Qed.
End Train.
Print Assumptions C102_training.
Print Assumptions C102_other_leaves.
Print Assumptions C102_is_array.
Print Assumptions C102_stateful.

(** ** Examples: two floats, an integer array and a function in a model; differences for derivatives; gradient descent that
    counts its steps. *)
From Coq Require Import ZArith.
Inductive exleaf := Fl (z : Z) | It (z : Z) | Fn (n : nat).
Definition exinexact (a : exleaf) : bool := match a with Fl _ => true | _ => false end.
Definition exarr (a : exleaf) : bool := match a with Fn _ => false | _ => true end.
Notation exT := (tree exleaf).
Definition exadd (x y : exT) : res exT :=
  match x, y with Leaf (Fl a), Leaf (Fl b) => Ok (Leaf (Fl (a + b))) | _, _ => Err TypeError end.
Definition first_of (v : exT) : exT := match v with Node _ (x :: _) => x | x => x end.
Definition exVG (aux : bool) (F : list exT -> res exT) (ws : list exT) : res (exT * list exT) :=
  v <- F ws ;;
  gs <- mapM (fun i => r <- F (firstn i ws ++ map (fun t => match t with Leaf (Fl z) => Leaf (Fl (z + 1)) | x => x end) (firstn 1 (skipn i ws)) ++ skipn (S i) ws) ;;
                       match first_of r, first_of v with Leaf (Fl a), Leaf (Fl b) => Ok (Leaf (Fl (a - b))) | _, _ => Err TypeError end)
             (seq 0 (length ws)) ;;
  Ok (v, gs).
Definition exopt (gs : list exT) (n : nat) (ps : option (list exT)) : res (list exT * nat) :=
  us <- mapM (fun g => match g with Leaf (Fl z) => Ok (Leaf (Fl (- z))) | _ => Err TypeError end) gs ;; Ok (us, S n).
Definition exmodel (a b : Z) : exT := Node 3 [Leaf (Fl a); Leaf (It 7); Node 4 [Leaf (Fn 1); TNone; Leaf (Fl b)]].
(** The loss: the first float times the batch, plus the second. *)
Definition exloss (m rest : exT) : res exT :=
  match m, rest with
  | Node 3 [Leaf (Fl a); Leaf (It 7); Node 4 [Leaf (Fn 1); TNone; Leaf (Fl b)]], Node 0 [Node 0 [Leaf (Fl x)]; _] => Ok (Leaf (Fl (a * x + b)))
  | _, _ => Err TypeError
  end.
Lemma mapM_leaf {A} (f : A -> res exT) : (forall a t, f a = Ok t -> is_Leaf t) -> forall l ts, mapM f l = Ok ts -> length ts = length l /\ Forall is_Leaf ts.
Proof.
  intros Hf. induction l as [|a l IH]; intros ts H; cbn in H; [injection H as <-; auto|]. apply bind_ok in H as (t & Ht & H). apply bind_ok in H as (ts' & Hs & H).
  injection H as <-. destruct (IH _ Hs). split; [cbn; auto|]. constructor; eauto.
Qed.
Example C102_ex :
  grad_law exinexact exVG /\ opt_law exopt /\ add_law exinexact exadd /\
  (forall g, train exinexact exVG exopt exadd (Node 1 []) exloss (if g : bool then Some exinexact else None) (exmodel 5 2) 0 [[Leaf (Fl 1)]; [Leaf (Fl 2)]]
    = Ok (exmodel 2 0, 2, [Leaf (Fl 7); Leaf (Fl 9)])) /\
  make_step exinexact exVG exopt exadd (Node 1 []) exloss (Some exarr) (exmodel 5 2) 0 [Leaf (Fl 1)] = Err ValueError.
Proof.
  split; [|split; [|split; [|split]]].
  - intros aux F ws v gs _ H. unfold exVG in H. apply bind_ok in H as (v' & _ & H). apply bind_ok in H as (gs' & H1 & H). injection H as <- <-.
    apply mapM_leaf in H1 as [H1 H2]; [split; [rewrite H1, seq_length; reflexivity|exact H2]|].
    intros i t Hi. apply bind_ok in Hi as (r & _ & Hi). destruct (first_of r) as [[]| |]; try discriminate. destruct (first_of v') as [[]| |]; try discriminate. injection Hi as <-. eexists; reflexivity.
  - intros gs s ps us s' H. unfold exopt in H. apply bind_ok in H as (us' & H1 & H). injection H as <- <-. apply mapM_leaf in H1; [exact H1|].
    intros [[]| |] t Ht; try discriminate. injection Ht as <-. eexists; reflexivity.
  - intros w u x (a & -> & Ha) (b & ->) H. destruct a, b; try discriminate. injection H as <-. eexists. split; [reflexivity|auto].
  - intros []; reflexivity.
  - reflexivity.
Qed.
Definition exstate (m rest : exT) : res exT :=
  match rest with
  | Node j [Node k (Leaf (It n) :: b); kw] => v <- exloss m (Node j [Node k b; kw]) ;; Ok (Node 0 [v; Leaf (It (n + 1))])
  | _ => Err TypeError
  end.
Example C102_stateful_ex :
  stateful_train exinexact exVG exopt exadd (Node 1 []) exstate (exmodel 5 2) (Leaf (It 10)) 0 [[Leaf (Fl 1)]; [Leaf (Fl 2)]]
  = Ok (exmodel 2 0, Leaf (It 12), 2).
Proof. reflexivity. Qed.
