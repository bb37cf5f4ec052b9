(** Proofs about the construction of [Module] instances and [module_update_wrapper]. *)
From Verif Require Export Module_Proofs.

Section Construct.
  Context {V : Type} (fields : list (field V)) (lookup : name -> cattr V) (own_method : V -> bool).
  Notation getattr := (getattr lookup).
  Notation names := (field_names fields).
  Notation is_prop := (@is_prop V lookup).
  Notation initset := (init_setattr lookup own_method).
  Notation run := (run lookup).
  Notation runi := (run (initset names)).
  Notation run_init := (run_init fields lookup own_method).
  Notation construct := (construct fields lookup own_method).

  Lemma initset_inv al d n v d' : initset al d n v = Ok d' ->
    In n al /\ own_method v = false /\ ~ is_prop n /\ d' = aset d n v.
  Proof.
    unfold init_setattr. destruct (mem n al) eqn:E; [|discriminate]. apply mem_In in E.
    destruct (own_method v); [discriminate|]. intros H. apply obj_setattr_inv in H as [? ?]. auto.
  Qed.

  (** A program run on a frozen instance changes nothing. *)
  Lemma run_frozen p d : fst (run frozen_setattr p d) = d.
  Proof. induction p as [|e|n v k IH|n v k IH|n k IH|n k IH]; cbn; auto. Qed.

  (** Names in [__dict__] are declared, none is hidden by a property, no stored value is a bound
      method of the instance itself, whatever the program does. *)
  Definition inv_dict (d : attrs V) : Prop :=
    (forall n, In n (map fst d) -> In n names /\ ~ is_prop n) /\ (forall n v, aget d n = Some v -> own_method v = false).
  Lemma inv_initset d n v d' : inv_dict d -> initset names d n v = Ok d' -> inv_dict d'.
  Proof.
    intros [H1 H2] H. apply initset_inv in H as (A & B & C & ->). split.
    - intros m Hm. apply aset_names in Hm as [Hm|Hm]; [auto|subst; auto].
    - intros m w. rewrite aget_aset. destruct (Nat.eqb_spec n m); [intros E; inv E; auto|apply H2].
  Qed.
  Lemma run_inv p : forall d, inv_dict d -> inv_dict (fst (runi p d)).
  Proof.
    induction p as [|e|n v k IH|n v k IH|n k IH|n k IH]; intros d Hd; cbn [Module_Model.run]; auto.
    - destruct (initset names d n v) eqn:E; auto. apply IH. eapply inv_initset; eauto.
    - destruct (initset names d n v) eqn:E; apply IH; auto. eapply inv_initset; eauto.
  Qed.
  Lemma store_all_inv l : forall d, (forall n v, In (n, v) l -> In n names /\ own_method v = false) ->
    inv_dict d -> inv_dict (fst (store_all lookup d l)).
  Proof.
    induction l as [|[n v] l IH]; intros d Hl Hd; cbn [store_all]; auto.
    destruct (obj_setattr lookup d n v) as [d'|e] eqn:E; auto. apply IH; [intros; apply Hl; right; auto|].
    destruct (Hl n v (or_introl eq_refl)) as [Hn Ho]. apply obj_setattr_inv in E as [Hp ->]. destruct Hd as [H1 H2]. split.
    - intros m Hm. apply aset_names in Hm as [Hm|Hm]; [auto|subst; auto].
    - intros m w. rewrite aget_aset. destruct (Nat.eqb_spec n m); [intros E; inv E; auto|apply H2].
  Qed.
  (** The generated [__init__] only stores fields, and the arguments existed before the instance. *)
  Definition init_ok (i : init V) : Prop :=
    match i with
    | Custom _ => True
    | Generated st _ => forall n v, In (n, v) st -> In n names /\ own_method v = false
    end.
  Lemma inv_nil : inv_dict [].
  Proof. split; [intros n []|cbn; discriminate]. Qed.
  Lemma run_init_inv i : init_ok i -> inv_dict (fst (run_init i)).
  Proof.
    destruct i as [p|st post]; cbn; intros H; [apply run_inv, inv_nil|].
    pose proof (store_all_inv st [] H inv_nil) as HI. destruct (store_all lookup [] st) as [d [u|e]]; cbn in *; auto.
    destruct post; cbn; auto. apply run_inv; auto.
  Qed.

  (** ** Converters *)
  Notation convs := (run_converters fields lookup own_method).
  Definition has_conv (f : field V) : bool := match f_conv f with Some _ => true | None => false end.

  Lemma convs_inv fs : forall d t r, convs fs d = (t, r) ->
    inv_dict d -> match r with Ok d' => inv_dict d' | Err _ => True end.
  Proof.
    induction fs as [|f fs IH]; intros d t r H Hd; cbn [run_converters] in H; [inv H; auto|].
    destruct (f_conv f) as [c|] eqn:Ec; [|eapply IH; eauto].
    destruct (getattr d (f_name f)) as [v|[]] eqn:Eg; try (inv H; exact I); [|eapply IH; eauto].
    destruct (w <- c v;; initset names d (f_name f) w) as [d'|e] eqn:Ew; [|inv H; exact I].
    destruct (convs fs d') as [t1 r1] eqn:E1. inv H. apply bind_ok in Ew as (w & Hc & Hs).
    eapply IH; eauto. eapply inv_initset; eauto.
  Qed.

  (** Converters only touch the entries of their own fields. *)
  Lemma convs_other fs : forall d t d' n, convs fs d = (t, Ok d') ->
    (forall f, In f fs -> has_conv f = true -> f_name f <> n) -> aget d' n = aget d n.
  Proof.
    induction fs as [|f fs IH]; intros d t d' n H Hn; cbn [run_converters] in H; [inv H; auto|].
    assert (Hn' : forall g, In g fs -> has_conv g = true -> f_name g <> n) by (intros g Hg; apply Hn; right; auto).
    destruct (f_conv f) as [c|] eqn:Ec; [|eauto].
    destruct (getattr d (f_name f)) as [v|[]] eqn:Eg; try (inv H; fail); [|eauto].
    destruct (w <- c v;; initset names d (f_name f) w) as [d1|e] eqn:Ew; [|inv H].
    destruct (convs fs d1) as [t1 r1] eqn:E1. inv H. apply bind_ok in Ew as (w & Hc & Hs).
    rewrite (IH _ _ _ _ E1 Hn'). apply initset_inv in Hs as (_ & _ & _ & ->). rewrite aget_aset.
    destruct (Nat.eqb_spec (f_name f) n); auto. exfalso. apply (Hn f); auto. left; auto. unfold has_conv. rewrite Ec. auto.
  Qed.

  (** A successful pass: an entry of [__dict__] with a converter is replaced by its conversion;
      exactly once each, in the order of the fields. *)
  Lemma convs_spec fs : NoDup (map f_name fs) -> forall d t d', convs fs d = (t, Ok d') ->
    forall f c v, In f fs -> f_conv f = Some c -> ~ is_prop (f_name f) -> aget d (f_name f) = Some v ->
    exists w, c v = Ok w /\ aget d' (f_name f) = Some w.
  Proof.
    induction fs as [|f0 fs IH]; intros HN d t d' H f c v Hf Hc Hp Hg; [destruct Hf|].
    cbn in HN. inversion HN as [|x xs HX HN']; subst. cbn [run_converters] in H.
    destruct Hf as [->|Hf].
    - rewrite Hc in H.
      assert (getattr d (f_name f) = Ok v) as Eg.
      { unfold Module_Model.getattr, Module_Proofs.is_prop in *. rewrite Hg. destruct (lookup (f_name f)); auto. exfalso; eauto. }
      rewrite Eg in H. destruct (w <- c v;; initset names d (f_name f) w) as [d1|e] eqn:Ew; [|inv H].
      destruct (convs fs d1) as [t1 r1] eqn:E1. inv H. apply bind_ok in Ew as (w & Hw & Hs).
      exists w. split; auto. rewrite (convs_other _ _ _ _ (f_name f) E1).
      + apply initset_inv in Hs as (_ & _ & _ & ->). rewrite aget_aset, Nat.eqb_refl. auto.
      + intros g Hg' _ E. apply HX. rewrite <- E. apply in_map; auto.
    - assert (Hne : f_name f0 <> f_name f) by (intros E; apply HX; rewrite E; apply in_map; auto).
      destruct (f_conv f0) as [c0|] eqn:Ec; [|eapply IH; eauto].
      destruct (getattr d (f_name f0)) as [v0|[]] eqn:Eg; try (inv H; fail); [|eapply IH; eauto].
      destruct (w <- c0 v0;; initset names d (f_name f0) w) as [d1|e] eqn:Ew; [|inv H].
      destruct (convs fs d1) as [t1 r1] eqn:E1. inv H. apply bind_ok in Ew as (w & Hw & Hs).
      eapply IH; eauto. apply initset_inv in Hs as (_ & _ & _ & ->). rewrite aget_aset.
      destruct (Nat.eqb_spec (f_name f0) (f_name f)); congruence.
  Qed.

  (** The converters that ran: a subsequence of the fields with one; all of them if none was
      unavailable. *)
  Lemma convs_trace fs : NoDup (map f_name fs) -> forall d t r, convs fs d = (t, r) ->
    exists l, t = map EConvert l /\ NoDup l /\ (forall n, In n l -> exists f, In f fs /\ f_name f = n /\ has_conv f = true).
  Proof.
    induction fs as [|f fs IH]; intros HN d t r H; cbn [run_converters] in H.
    - inv H. exists []. split; auto. split; [constructor|]. intros n [].
    - cbn in HN. inversion HN as [|x xs HX HN']; subst.
      assert (HT : forall d1 t1 r1, convs fs d1 = (t1, r1) -> exists l, t1 = map EConvert l /\ NoDup l /\
                (forall n, In n l -> exists g, In g (f :: fs) /\ f_name g = n /\ has_conv g = true)).
      { intros d1 t1 r1 H1. destruct (IH HN' _ _ _ H1) as (l & -> & L1 & L2). exists l. split; auto. split; auto.
        intros n Hn. destruct (L2 n Hn) as (g & Hg & E & Hc). exists g. split; [right|]; auto. }
      destruct (f_conv f) as [c|] eqn:Ec; [|eauto].
      assert (Hf : has_conv f = true) by (unfold has_conv; rewrite Ec; auto).
      destruct (getattr d (f_name f)) as [v|[]] eqn:Eg; try (inv H; exists []; split; auto; split; [constructor|intros n []]); [|eauto].
      destruct (w <- c v;; initset names d (f_name f) w) as [d1|e] eqn:Ew.
      + destruct (convs fs d1) as [t1 r1] eqn:E1. inv H.
        destruct (IH HN' _ _ _ E1) as (l & -> & L1 & L2). exists (f_name f :: l). split; auto. split.
        * constructor; auto. intros HC. destruct (L2 _ HC) as (g & Hg & E & _). apply HX. rewrite <- E. apply in_map; auto.
        * intros n [<-|Hn]; [exists f; split; [left|]; auto|]. destruct (L2 n Hn) as (g & Hg & E & Hc). exists g. split; [right|]; auto.
      + inv H. exists [f_name f]. split; auto. split; [constructor; [intros []|constructor]|].
        intros n [<-|[]]. exists f. split; [left|]; auto.
  Qed.
  Lemma convs_all fs : NoDup (map f_name fs) -> forall d t d', convs fs d = (t, Ok d') ->
    (forall f, In f fs -> has_conv f = true -> ~ is_prop (f_name f)) ->
    (forall f, In f fs -> in_dir lookup d' (f_name f) = true) ->
    t = map (fun f => EConvert (f_name f)) (List.filter has_conv fs).
  Proof.
    induction fs as [|f fs IH]; intros HN d t d' H HP HD; cbn [run_converters] in H; [inv H; auto|].
    cbn in HN. inversion HN as [|x xs HX HN']; subst. cbn [List.filter].
    assert (HP' : forall g, In g fs -> has_conv g = true -> ~ is_prop (f_name g)) by (intros g Hg; apply HP; right; auto).
    assert (HD' : forall g, In g fs -> in_dir lookup d' (f_name g) = true) by (intros g Hg; apply HD; right; auto).
    unfold has_conv at 1. destruct (f_conv f) as [c|] eqn:Ec; [|eauto].
    assert (Hf : has_conv f = true) by (unfold has_conv; rewrite Ec; auto).
    destruct (getattr d (f_name f)) as [v|[]] eqn:Eg; try (inv H; fail).
    - destruct (w <- c v;; initset names d (f_name f) w) as [d1|e] eqn:Ew; [|inv H].
      destruct (convs fs d1) as [t1 r1] eqn:E1. inv H. cbn. f_equal. eapply IH; eauto.
    - exfalso. specialize (HP f (or_introl eq_refl) Hf). specialize (HD f (or_introl eq_refl)).
      assert (HO : aget d' (f_name f) = aget d (f_name f)).
      { eapply convs_other; eauto. intros g Hg _ E. apply HX. rewrite <- E. apply in_map; auto. }
      unfold Module_Model.getattr, in_dir, Module_Proofs.is_prop in *. rewrite HO in HD.
      destruct (lookup (f_name f)); [|destruct (aget d (f_name f)); discriminate|apply HP; eauto].
      destruct (aget d (f_name f)); discriminate.
  Qed.

  Lemma missing_nil d : missing fields lookup d = [] <-> forall n, In n names -> in_dir lookup d n = true.
  Proof.
    unfold missing. split.
    - intros H n Hn. destruct (in_dir lookup d n) eqn:E; auto.
      assert (HI : In n (List.filter (fun n => negb (in_dir lookup d n)) names)) by (apply filter_In; rewrite E; auto).
      rewrite H in HI. destruct HI.
    - intros H. induction names as [|n l IH]; cbn; auto. rewrite H by (left; auto). cbn. apply IH. intros; apply H; right; auto.
  Qed.

  Lemma checks_trace cs : forall d t r, run_checks lookup cs d = (t, r) ->
    match r with
    | Ok _ => t = map (fun c => ECheck (fst c)) cs /\ Forall (fun c => snd (run frozen_setattr (snd c) d) = Ok tt) cs
    | Err e => exists cs1 c cs2, cs = cs1 ++ c :: cs2 /\ t = map (fun c => ECheck (fst c)) (cs1 ++ [c]) /\
        Forall (fun c => snd (run frozen_setattr (snd c) d) = Ok tt) cs1 /\ snd (run frozen_setattr (snd c) d) = Err e
    end.
  Proof.
    induction cs as [|[c p] cs IH]; intros d t r H; cbn [run_checks] in H; [inv H; auto|].
    destruct (snd (run frozen_setattr p d)) as [[]|e] eqn:E.
    - destruct (run_checks lookup cs d) as [t1 r1] eqn:E1. inv H. specialize (IH _ _ _ E1). destruct r as [u|e].
      + destruct IH as [-> HF]. split; auto.
      + destruct IH as (cs1 & c1 & cs2 & -> & -> & HF & He). exists ((c, p) :: cs1), c1, cs2. repeat split; auto.
    - inv H. exists [], (c, p), cs. repeat split; auto.
  Qed.

  (** ** The whole construction *)
  Lemma construct_ok i cs t d : init_ok i -> NoDup names -> construct i cs = (t, Ok d) ->
    exists d0 l, run_init i = (d0, Ok tt) /\
      inv_dict d /\ (forall n, In n names -> in_dir lookup d n = true) /\
      t = EInit :: map EConvert l ++ EFreeze :: map (fun c => ECheck (fst c)) cs /\
      NoDup l /\ (forall n, In n l -> exists f, In f fields /\ f_name f = n /\ has_conv f = true) /\
      ((forall f, In f fields -> has_conv f = true -> ~ is_prop (f_name f)) ->
        l = map f_name (List.filter has_conv fields)) /\
      (forall f c v, In f fields -> f_conv f = Some c -> aget d0 (f_name f) = Some v ->
        exists w, c v = Ok w /\ aget d (f_name f) = Some w) /\
      (forall f, In f fields -> f_conv f = None -> aget d (f_name f) = aget d0 (f_name f)) /\
      Forall (fun c => snd (run frozen_setattr (snd c) d) = Ok tt) cs.
  Proof.
    intros HI HN. unfold Module_Model.construct. pose proof (run_init_inv i HI) as Hd0.
    destruct (run_init i) as [d0 [[]|e]]; [|intros H; inv H]. cbn [fst] in Hd0.
    destruct (convs fields d0) as [t1 [d1|e]] eqn:Ec; [|intros H; inv H].
    destruct (missing fields lookup d1) eqn:Em; [|intros H; inv H].
    destruct (read_static lookup fields d1); [|intros H; inv H].
    destruct (run_checks lookup cs d1) as [t2 [[]|e]] eqn:Er; intros H; inv H.
    pose proof (convs_inv _ _ _ _ Ec Hd0) as Hd1. cbn in Hd1.
    destruct (convs_trace _ HN _ _ _ Ec) as (l & -> & L1 & L2).
    pose proof (checks_trace _ _ _ _ Er) as [-> HC].
    pose proof (proj1 (missing_nil d) Em) as HM.
    exists d0, l. do 5 (split; [auto|]). split; [auto|]. split.
    { intros HP. pose proof (convs_all _ HN _ _ _ Ec HP) as HA.
      assert (HX : map EConvert l = map (fun f => EConvert (f_name f)) (List.filter has_conv fields)).
      { apply HA. intros f Hf. apply HM. apply in_map; auto. }
      rewrite <- (map_map f_name EConvert) in HX. clear - HX. revert HX. generalize (map f_name (List.filter has_conv fields)).
      induction l as [|x l IH]; intros [|y m] H; cbn in H; try discriminate; auto. injection H as -> H. f_equal; auto. }
    split.
    { intros f c v Hf Hc Hv. eapply convs_spec; eauto. apply Hd0. apply aget_In. congruence. }
    split; [|exact HC].
    intros f Hf Hc. eapply convs_other; eauto. intros g Hg Hgc E.
    assert (g = f); [|subst; unfold has_conv in Hgc; rewrite Hc in Hgc; discriminate].
    unfold field_names in HN. clear - HN Hf Hg E. induction fields as [|h fs IH]; [destruct Hf|].
    cbn in HN. inversion HN as [|x xs HX HN']; subst. destruct Hf as [->|Hf], Hg as [->|Hg]; auto.
    - exfalso. apply HX. rewrite <- E. apply in_map; auto.
    - exfalso. apply HX. rewrite E. apply in_map; auto.
  Qed.

  (** A failing construction stops before freezing, or in a [__check_init__]. *)
  Lemma construct_err i cs t e : NoDup names -> construct i cs = (t, Err e) ->
    exists l, NoDup l /\ (forall n, In n l -> exists f, In f fields /\ f_name f = n /\ has_conv f = true) /\
    (t = EInit :: map EConvert l \/
     exists cs1 c cs2, cs = cs1 ++ c :: cs2 /\ t = EInit :: map EConvert l ++ EFreeze :: map (fun c => ECheck (fst c)) (cs1 ++ [c])).
  Proof.
    intros HN. unfold Module_Model.construct.
    destruct (run_init i) as [d0 [[]|e']].
    2:{ intros H; inv H. exists []. split; [constructor|]. split; [intros n []|auto]. }
    destruct (convs fields d0) as [t1 r1] eqn:Ec. destruct (convs_trace _ HN _ _ _ Ec) as (l & -> & L1 & L2).
    destruct r1 as [d1|e'].
    2:{ intros H; inv H. exists l. auto. }
    destruct (missing fields lookup d1) eqn:Em.
    2:{ intros H; inv H. exists l. auto. }
    destruct (read_static lookup fields d1).
    2:{ intros H; inv H. exists l. auto. }
    destruct (run_checks lookup cs d1) as [t2 [[]|e']] eqn:Er; intros H; inv H.
    pose proof (checks_trace _ _ _ _ Er) as (cs1 & c & cs2 & -> & -> & _). exists l. split; auto. split; auto. right.
    exists cs1, c, cs2. split; auto.
  Qed.
  Lemma construct_missing i cs d0 d1 t1 n : run_init i = (d0, Ok tt) -> convs fields d0 = (t1, Ok d1) ->
    In n names -> lookup n = CNone -> aget d1 n = None -> snd (construct i cs) = Err ValueError.
  Proof.
    intros H1 H2 Hn Hl Hg. unfold Module_Model.construct. rewrite H1, H2.
    destruct (missing fields lookup d1) eqn:Em; auto. exfalso.
    pose proof (proj1 (missing_nil d1) Em n Hn) as H. unfold in_dir in H. rewrite Hl, Hg in H. discriminate.
  Qed.

  (** ** [module_update_wrapper] *)
  Variable worder : list name.
  Lemma copy_spec ws gw : NoDup ws -> forall d d', copy_wrapper lookup own_method worder ws gw d = (d', Ok tt) ->
    (forall w v, In w ws -> gw w = Ok v -> aget d' w = Some v) /\
    (forall n, (forall v, gw n <> Ok v) \/ ~ In n ws -> aget d' n = aget d n).
  Proof.
    induction ws as [|w ws IH]; intros HN d d' H; cbn [copy_wrapper] in H.
    - inv H. split; [intros w v []|auto].
    - inversion HN as [|x xs HX HN']; subst.
      destruct (gw w) as [v|[]] eqn:Eg; try (inv H; fail).
      + destruct (init_setattr lookup own_method worder d w v) as [d1|e] eqn:Es; [|inv H].
        destruct (IH HN' _ _ H) as [I1 I2]. apply initset_inv in Es as (_ & _ & _ & ->). split.
        * intros u x [<-|Hu] Hx; auto. rewrite I2 by (right; auto). rewrite aget_aset, Nat.eqb_refl. congruence.
        * intros n Hn. rewrite I2 by (destruct Hn as [Hn|Hn]; [left; auto|right; intros ?; apply Hn; right; auto]).
          rewrite aget_aset. destruct (Nat.eqb_spec w n); auto. subst. destruct Hn as [Hn|Hn]; [exfalso; eapply Hn; eauto|exfalso; apply Hn; left; auto].
      + destruct (IH HN' _ _ H) as [I1 I2]. split.
        * intros u x [<-|Hu] Hx; [congruence|auto].
        * intros n Hn. apply I2. destruct Hn as [Hn|Hn]; [left; auto|right; intros ?; apply Hn; right; auto].
  Qed.
  Lemma update_wrapper_spec hw gw d d' : class_ok fields lookup worder -> inst_ok lookup d ->
    update_wrapper fields lookup own_method worder hw gw d = Ok d' ->
    hw = true /\ (forall n, In n names -> aget d' n = aget d n) /\
    (forall w v, In w worder -> gw w = Ok v -> getattr d' w = Ok v) /\
    (forall w, In w worder -> (forall v, gw w <> Ok v) -> getattr d' w = getattr d w).
  Proof.
    intros HC HI H. unfold update_wrapper in H. destruct hw; [|discriminate]. split; auto.
    apply bind_ok in H as ([vs a] & Hf & H). apply bind_ok in H as (d1 & Hu & H).
    destruct (copy_wrapper lookup own_method worder worder gw d1) as [d2 [[]|e]] eqn:Ecp; inv H.
    destruct HC as (C1 & C2 & C3 & C4). destruct (copy_spec worder gw C2 _ _ Ecp) as [P1 P2].
    destruct (unflatten_spec fields lookup worder d vs a vs) as (d1' & Hu' & Hf' & HI' & U1 & U2 & U3 & U4 & U5); auto.
    { do 3 (split; [auto|]). auto. }
    rewrite Hu in Hu'. inv Hu'. pose proof (dyn_names_spec _ _ _ _ _ _ Hf) as (D1 & D2 & _ & _).
    split; [|split].
    - intros n Hn. rewrite P2 by (right; intros HX; apply (C3 n HX); auto).
      destruct (in_dec Nat.eq_dec n (dyn_names a)) as [Hd|Hd]; [|auto].
      apply In_nth_error in Hd as [i Hi].
      assert (exists v, nth_error vs i = Some v /\ aget d n = Some v) as (v & Hv & Hg).
      { clear - D2 Hi. revert i Hi. induction D2 as [|x y l r Hxy HF IH]; intros [|i] Hi; cbn in *; try discriminate; [inv Hi; eauto|eauto]. }
      rewrite Hg. eapply U1; eauto.
    - intros w v Hw Hv. unfold Module_Model.getattr. rewrite (P1 w v Hw Hv). specialize (C4 w Hw).
      unfold Module_Proofs.is_prop in C4. destruct (lookup w); auto. exfalso; eauto.
    - intros w Hw Hv. rewrite <- (U3 w Hw). unfold Module_Model.getattr.
      rewrite P2 by auto. specialize (C4 w Hw). unfold Module_Proofs.is_prop in C4.
      destruct (lookup w) eqn:El; auto; [|exfalso; eauto].
      assert (exists v, getattr d w = Ok v) as (v & Hgv).
      { unfold Module_Model.getattr. rewrite El. destruct (aget d w); eauto. }
      rewrite (U5 w v Hw Hgv). auto.
  Qed.
End Construct.
