(** Proofs about class creation. *)
From Verif Require Export Class_Model.

Lemma mem_In n l : mem n l = true <-> In n l.
Proof.
  unfold mem. rewrite existsb_exists. split.
  - intros (x & H & E). apply Nat.eqb_eq in E. subst; auto.
  - intros H. exists n. split; auto. apply Nat.eqb_refl.
Qed.
Lemma In_discard n m l : In n (discard m l) <-> In n l /\ n <> m.
Proof. unfold discard. rewrite filter_In, negb_true_iff, Nat.eqb_neq. tauto. Qed.
Lemma In_add n m l : In n (add m l) <-> In n l \/ n = m.
Proof.
  unfold add. destruct (mem m l) eqn:E.
  - apply mem_In in E. split; [auto|]. intros [H| ->]; auto.
  - rewrite in_app_iff. cbn. intuition congruence.
Qed.
Lemma In_discard_all n ns l : In n (discard_all ns l) <-> In n l /\ ~ In n ns.
Proof.
  revert l. induction ns as [|m ns IH]; intros l; cbn; [tauto|]. rewrite IH, In_discard. intuition congruence.
Qed.
Lemma aget_None {V} (d : list (name * V)) n : aget d n = None <-> ~ In n (map fst d).
Proof.
  induction d as [|[k w] d IH]; cbn; [tauto|]. destruct (Nat.eqb_spec k n); [subst; intuition congruence|].
  rewrite IH. intuition.
Qed.

(** ** Abstract attributes *)

(** [n] is declared [AbstractClassVar] by some class and no class before it in the MRO gives it a
    value or annotates it as [ClassVar]. *)
Definition open_classvar (ds : list cdef) (n : name) : Prop :=
  exists i d, nth_error ds i = Some d /\ aget (d_ann d) n = Some AbsClassVar /\
    forall j e, j < i -> nth_error ds j = Some e -> aget (d_dict e) n = None /\ aget (d_ann e) n <> Some ClsVar.
(** [n] is declared [AbstractVar] by some class and no class before it in the MRO gives it a value
    or annotates it as a plain or class variable. *)
Definition open_var (ds : list cdef) (n : name) : Prop :=
  exists i d, nth_error ds i = Some d /\ aget (d_ann d) n = Some AbsVar /\
    forall j e, j < i -> nth_error ds j = Some e ->
      aget (d_dict e) n = None /\ aget (d_ann e) n <> Some ClsVar /\ aget (d_ann e) n <> Some Plain.

Lemma open_classvar_cons d ds n : open_classvar (d :: ds) n <->
  aget (d_ann d) n = Some AbsClassVar \/
  aget (d_dict d) n = None /\ aget (d_ann d) n <> Some ClsVar /\ open_classvar ds n.
Proof.
  split.
  - intros (i & e & Hi & Ha & Hj). destruct i as [|i]; cbn in Hi; [inv Hi; auto|].
    right. destruct (Hj 0 d) as [A B]; [lia|auto|]. split; auto. split; auto.
    exists i, e. split; auto. split; auto. intros j f Hlt Hf. apply (Hj (S j)); [lia|auto].
  - intros [H|(H1 & H2 & i & e & Hi & Ha & Hj)].
    + exists 0, d. split; auto. split; auto. intros j e Hlt. lia.
    + exists (S i), e. split; auto. split; auto. intros [|j] f Hlt Hf; cbn in Hf; [inv Hf; auto|]. apply (Hj j); [lia|auto].
Qed.
Lemma open_var_cons d ds n : open_var (d :: ds) n <->
  aget (d_ann d) n = Some AbsVar \/
  aget (d_dict d) n = None /\ aget (d_ann d) n <> Some ClsVar /\ aget (d_ann d) n <> Some Plain /\ open_var ds n.
Proof.
  split.
  - intros (i & e & Hi & Ha & Hj). destruct i as [|i]; cbn in Hi; [inv Hi; auto|].
    right. destruct (Hj 0 d) as (A & B & C); [lia|auto|]. split; auto. split; auto. split; auto.
    exists i, e. split; auto. split; auto. intros j f Hlt Hf. apply (Hj (S j)); [lia|auto].
  - intros [H|(H1 & H2 & H3 & i & e & Hi & Ha & Hj)].
    + exists 0, d. split; auto. split; auto. intros j e Hlt. lia.
    + exists (S i), e. split; auto. split; auto. intros [|j] f Hlt Hf; cbn in Hf; [inv Hf; auto|]. apply (Hj j); [lia|auto].
Qed.

Lemma scan_ann_spec dict anns : NoDup (map fst anns) -> forall av acv av' acv',
  scan_ann dict anns av acv = Ok (av', acv') -> forall n,
  (In n acv' <-> match aget anns n with Some AbsClassVar => True | Some ClsVar => False | _ => In n acv end) /\
  (In n av' <-> match aget anns n with
                | Some AbsVar => In n av \/ ~ In n acv
                | Some _ => False
                | None => In n av end) /\
  (forall a, aget anns n = Some a -> a <> BareAbs /\ a <> StrAbs) /\
  (aget anns n = Some AbsVar \/ aget anns n = Some AbsClassVar -> aget dict n = None).
Proof.
  induction anns as [|[m a] anns IH]; intros HN av acv av' acv' H n; cbn [scan_ann] in H.
  - inv H. cbn. repeat split; auto; intuition discriminate.
  - cbn in HN. inversion HN as [|x xs HX HN']; subst.
    assert (HM : aget anns m = None) by (apply aget_None; auto).
    cbn [aget].
    destruct a; cbn [process_annotation bind] in H; try discriminate.
    + destruct (aget dict m) eqn:Ed; [discriminate|].
      destruct (IH HN' _ _ _ _ H n) as (I1 & I2 & I3 & I4). destruct (Nat.eqb_spec m n).
      * subst. rewrite HM in *. split; [tauto|]. split.
        { rewrite I2. destruct (mem n acv) eqn:Em; [apply mem_In in Em; tauto|].
          rewrite In_add. assert (~ In n acv) by (rewrite <- mem_In; congruence). tauto. }
        split; [intros a Ha; inv Ha; split; discriminate|auto].
      * split; [auto|]. split; [|auto]. rewrite I2.
        destruct (mem m acv) eqn:Em; [tauto|]. destruct (aget anns n) as [[]|]; rewrite ?In_add; intuition congruence.
    + destruct (aget dict m) eqn:Ed; [discriminate|].
      destruct (IH HN' _ _ _ _ H n) as (I1 & I2 & I3 & I4). destruct (Nat.eqb_spec m n).
      * subst. rewrite HM in *. rewrite I1, I2, In_add, In_discard. split; [tauto|]. split; [tauto|].
        split; [intros a Ha; inv Ha; split; discriminate|auto].
      * rewrite I1, I2. split; [destruct (aget anns n) as [[]|]; rewrite ?In_add; intuition congruence|].
        split; [|auto]. destruct (aget anns n) as [[]|]; rewrite ?In_add, ?In_discard; intuition congruence.
    + destruct (IH HN' _ _ _ _ H n) as (I1 & I2 & I3 & I4). destruct (Nat.eqb_spec m n).
      * subst. rewrite HM in *. rewrite I1, I2, !In_discard. split; [tauto|]. split; [tauto|].
        split; [intros a Ha; inv Ha; split; discriminate|intuition discriminate].
      * rewrite I1, I2. split; [destruct (aget anns n) as [[]|]; rewrite ?In_discard; intuition congruence|].
        split; [|auto]. destruct (aget anns n) as [[]|]; rewrite ?In_discard; intuition congruence.
    + destruct (IH HN' _ _ _ _ H n) as (I1 & I2 & I3 & I4). destruct (Nat.eqb_spec m n).
      * subst. rewrite HM in *. rewrite I1, I2, !In_discard. split; [tauto|]. split; [tauto|].
        split; [intros a Ha; inv Ha; split; discriminate|intuition discriminate].
      * rewrite I1, I2. split; [destruct (aget anns n) as [[]|]; rewrite ?In_discard; intuition congruence|].
        split; [|auto]. destruct (aget anns n) as [[]|]; rewrite ?In_discard; intuition congruence.
Qed.

Lemma scan_mro_spec ds : Forall (fun d => NoDup (map fst (d_ann d))) ds -> forall av acv,
  scan_mro ds = Ok (av, acv) -> forall n,
  (In n acv <-> open_classvar ds n) /\ (In n av <-> open_var ds n /\ ~ open_classvar ds n).
Proof.
  induction ds as [|d ds IH]; intros HF av acv H n; cbn [scan_mro] in H.
  - inv H. split.
    + split; [intros []|]. intros (i & d & Hi & _). destruct i; discriminate.
    + split; [intros []|]. intros [(i & d & Hi & _) _]. destruct i; discriminate.
  - inversion HF as [|x xs Hd HF']; subst. apply bind_ok in H as ([av0 acv0] & H0 & H).
    unfold scan_class in H. apply bind_ok in H as ([av1 acv1] & H1 & H). inv H.
    destruct (IH HF' _ _ H0 n) as [I1 I2]. destruct (scan_ann_spec _ _ Hd _ _ _ _ H1 n) as (S1 & S2 & S3 & S4).
    rewrite !In_discard_all, open_classvar_cons, open_var_cons, <- aget_None, S1, S2.
    destruct (aget (d_ann d) n) as [[]|] eqn:Ea; try (destruct (S3 _ eq_refl); congruence);
      (split; [intuition congruence|]).
    + specialize (S4 (or_introl eq_refl)). intuition congruence.
    + specialize (S4 (or_intror eq_refl)). intuition congruence.
    + intuition congruence.
    + intuition congruence.
    + intuition congruence.
Qed.

(** When class creation is refused because of its annotations. *)
Definition bad_ann (d : cdef) : Prop := exists n a, In (n, a) (d_ann d) /\
  (a = BareAbs \/ a = StrAbs \/ (a = AbsVar \/ a = AbsClassVar) /\ aget (d_dict d) n <> None).
Lemma scan_ann_err dict anns av acv : (exists e, scan_ann dict anns av acv = Err e) <->
  exists n a, In (n, a) anns /\ (a = BareAbs \/ a = StrAbs \/ (a = AbsVar \/ a = AbsClassVar) /\ aget dict n <> None).
Proof.
  revert av acv. induction anns as [|[m a] anns IH]; intros av acv; cbn [scan_ann].
  - split; [intros [e H]; discriminate|intros (n & a & [] & _)].
  - assert (HC : (a = BareAbs \/ a = StrAbs \/ (a = AbsVar \/ a = AbsClassVar) /\ aget dict m <> None) \/
      ~ (a = BareAbs \/ a = StrAbs \/ (a = AbsVar \/ a = AbsClassVar) /\ aget dict m <> None)).
    { destruct a, (aget dict m); intuition discriminate. }
    destruct HC as [HC|HC].
    + split; [intros _; exists m, a; split; [left; auto|auto]|]. intros _.
      destruct HC as [->|[->|[[-> | ->] HD]]]; cbn; eauto; destruct (aget dict m); try congruence; eauto.
    + assert (HR : (exists n b, In (n, b) ((m, a) :: anns) /\ (b = BareAbs \/ b = StrAbs \/ (b = AbsVar \/ b = AbsClassVar) /\ aget dict n <> None)) <->
                   (exists n b, In (n, b) anns /\ (b = BareAbs \/ b = StrAbs \/ (b = AbsVar \/ b = AbsClassVar) /\ aget dict n <> None))).
      { split; intros (n & b & Hin & Hb).
        - destruct Hin as [E|Hin]; [injection E as <- <-; tauto|eauto].
        - exists n, b. split; [right|]; auto. }
      rewrite HR. destruct a; cbn [process_annotation bind]; try (exfalso; apply HC; auto; fail); try apply IH.
      * destruct (aget dict m) eqn:Ed; [exfalso; apply HC; right; right; split; [auto|congruence]|apply IH].
      * destruct (aget dict m) eqn:Ed; [exfalso; apply HC; right; right; split; [auto|congruence]|apply IH].
Qed.
Lemma scan_mro_err ds : (exists e, scan_mro ds = Err e) <-> Exists bad_ann ds.
Proof.
  induction ds as [|d ds IH]; cbn [scan_mro].
  - split; [intros [e H]; discriminate|intros H; inv H].
  - destruct (scan_mro ds) as [[av acv]|e] eqn:E; cbn [bind].
    + assert (HE : ~ Exists bad_ann ds) by (rewrite <- IH; intros [e He]; discriminate).
      rewrite Exists_cons. unfold scan_class. unfold bad_ann at 1. rewrite <- (scan_ann_err (d_dict d) (d_ann d) av acv).
      destruct (scan_ann (d_dict d) (d_ann d) av acv) as [[? ?]|e] eqn:Es; cbn.
      * split; [intros [e H]; discriminate|intros [[e H]|H]; [discriminate|tauto]].
      * split; eauto.
    + split; eauto. intros _. apply Exists_cons_tl. apply IH. eauto.
Qed.

Lemma len0 {A} (l : list A) : Nat.eqb (length l) 0 = true <-> l = [].
Proof. destruct l; cbn; split; intros; congruence. Qed.
Lemma instantiate_ok {V} c (v : V) : snd (instantiate c (Ok v)) = Ok v <-> is_abstract c = false.
Proof.
  unfold instantiate, is_abstract. destruct (c_force c); cbn; [split; discriminate|].
  destruct (Nat.eqb (length (c_absclassvars c)) 0); cbn.
  - destruct (Nat.eqb (length (c_abstractmethods c)) 0); cbn.
    + destruct (Nat.eqb (length (c_absvars c)) 0); cbn; split; auto; discriminate.
    + split; discriminate.
  - rewrite !orb_true_r. split; discriminate.
Qed.

(** ** Linearisation *)
Lemma drop_head_In x y s : In y (drop_head x s) -> In y s.
Proof. destruct s as [|z s]; cbn; auto. destruct (Nat.eqb x z); cbn; auto. Qed.
Lemma find_head_In cands seqs x : find_head cands seqs = Some x -> exists s, In s cands /\ In x s.
Proof.
  induction cands as [|[|y s] cs IH]; cbn; intros H; [discriminate| |].
  - destruct (IH H) as (s & Hs & Hx). eauto.
  - destruct (head_ok y seqs); [inv H; exists (x :: s); cbn; auto|]. destruct (IH H) as (s' & Hs & Hx). eauto.
Qed.
Lemma c3_merge_In fuel : forall seqs l x, c3_merge fuel seqs = Ok l -> In x l -> exists s, In s seqs /\ In x s.
Proof.
  induction fuel as [|f IH]; intros seqs l x H Hx; cbn [c3_merge] in H; destruct (all_nil seqs).
  - inv H. destruct Hx.
  - discriminate.
  - inv H. destruct Hx.
  - destruct (find_head seqs seqs) as [y|] eqn:E; [|discriminate].
    destruct (c3_merge f (map (drop_head y) seqs)) as [l'|] eqn:E'; [|discriminate]. cbn in H. inv H.
    destruct Hx as [<-|Hx]; [eapply find_head_In; eauto|].
    destruct (IH _ _ _ E' Hx) as (s & Hs & Hxs). apply in_map_iff in Hs as (s' & <- & Hs').
    exists s'. split; auto. eapply drop_head_In; eauto.
Qed.
Lemma c3_In reg self bases mro x : c3 reg self bases = Ok mro -> In x mro ->
  x = self \/ In x bases \/ exists b, In b bases /\ In x (mro_of reg b).
Proof.
  unfold c3. intros H Hx. destruct (c3_merge _ _) as [l|] eqn:E; [|discriminate]. cbn in H. inv H.
  destruct Hx as [<-|Hx]; auto. destruct (c3_merge_In _ _ _ _ E Hx) as (s & Hs & Hxs).
  apply in_app_iff in Hs as [Hs|[<-|[]]]; auto. apply in_map_iff in Hs as (b & <- & Hb). right. right. eauto.
Qed.
Lemma c3_hd reg self bases mro : c3 reg self bases = Ok mro -> exists l, mro = self :: l.
Proof. unfold c3. destruct (c3_merge _ _); cbn; intros H; inv H; eauto. Qed.

(** Every base comes after the class, and each class of a base's MRO is in the MRO. *)
Lemma drop_head_keep x y s : y <> x -> In y s -> In y (drop_head x s).
Proof. destruct s as [|z s]; cbn; auto. intros N H. destruct (Nat.eqb_spec x z); cbn; auto. destruct H; [congruence|auto]. Qed.
Lemma c3_merge_complete fuel : forall seqs l, c3_merge fuel seqs = Ok l -> forall s x, In s seqs -> In x s -> In x l.
Proof.
  induction fuel as [|f IH]; intros seqs l H s x Hs Hx; cbn [c3_merge] in H; destruct (all_nil seqs) eqn:En.
  - unfold all_nil in En. rewrite forallb_forall in En. specialize (En s Hs). destruct s; [destruct Hx|discriminate].
  - discriminate.
  - unfold all_nil in En. rewrite forallb_forall in En. specialize (En s Hs). destruct s; [destruct Hx|discriminate].
  - destruct (find_head seqs seqs) as [y|] eqn:E; [|discriminate].
    destruct (c3_merge f (map (drop_head y) seqs)) as [l'|] eqn:E'; [|discriminate]. cbn in H. inv H.
    destruct (Nat.eq_dec x y) as [->|N]; [left; auto|right]. eapply IH; [eauto|apply in_map; eauto|].
    apply drop_head_keep; auto.
Qed.

(** ** Registries *)
Section Reg.
  Variable magic : name -> bool.
  Notation reachable := (reachable magic).
  Notation create_module := (create_module magic).

  Lemma create_module_inv reg d c : create_module reg d = Ok c ->
    c_kind c = KModule /\ c_def c = d /\ c3 reg (length reg) (d_bases d) = Ok (c_mro c) /\
    scan_mro (d :: defs_along reg (tl (c_mro c))) = Ok (c_absvars c, c_absclassvars c) /\
    c_abstractmethods c = abstract_methods reg d (d :: defs_along reg (tl (c_mro c))) /\
    c_dcfields c = own_fields (d_ann d) (inherited_fields reg (tl (c_mro c))) /\
    (c_strict c = true <-> d_strict d <> None) /\
    (d_has_init d = true -> c_dc_init c = false) /\
    (forall cfg, d_strict d = Some cfg -> check_strict magic cfg reg c = Ok tt /\ c_force c = force_abstract cfg).
  Proof.
    unfold Class_Model.create_module. intros H. apply bind_ok in H as (mro & Hm & H).
    apply bind_ok in H as ([av acv] & Hs & H). apply bind_ok in H as (dc & Hdc & H). apply bind_ok in H as ([] & Hc & H).
    inv H. cbn. do 6 (split; [auto|]). split; [destruct (d_strict d); intuition congruence|]. split.
    - intros Hi. rewrite Hi in Hdc. inv Hdc. auto.
    - intros cfg Hcfg. rewrite Hcfg in *. auto.
  Qed.

  Lemma reach_split (reg : registry) c i : nth_error (reg ++ [c]) i = nth_error reg i \/ i = length reg.
  Proof.
    destruct (Nat.lt_ge_cases i (length reg)); [left; apply nth_error_app1; auto|].
    destruct (Nat.eq_dec i (length reg)); auto. left. rewrite nth_error_app2 by lia.
    replace (nth_error reg i) with (@None cls) by (symmetry; apply nth_error_None; lia).
    destruct (i - length reg) as [|[|k]] eqn:E; cbn; auto. lia.
  Qed.

  (** Facts about every class of a reachable registry. *)
  Definition wf_cls (reg : registry) (i : nat) (c : cls) : Prop :=
    (exists l, c_mro c = i :: l) /\ (forall x, In x (c_mro c) -> x <= i) /\
    (forall x, In x (c_mro c) -> x = i \/ i = 1 /\ x = 0 \/ exists b, In b (d_bases (c_def c)) /\ b < i /\ In x (mro_of reg b)).
  Lemma mro_of_app reg c b : b < length reg -> mro_of (reg ++ [c]) b = mro_of reg b.
  Proof. intros H. unfold mro_of. rewrite nth_error_app1; auto. Qed.
  Lemma wf_app reg c i c' : i <= length reg -> wf_cls reg i c' -> wf_cls (reg ++ [c]) i c'.
  Proof.
    intros Hi (H1 & H2 & H3). split; auto. split; auto. intros x Hx. destruct (H3 x Hx) as [?|[?|(b & Hb & Hlt & Hin)]]; auto.
    right. right. exists b. split; auto. split; auto. rewrite mro_of_app by lia. auto.
  Qed.
  Lemma reach_wf reg : reachable reg -> 2 <= length reg /\ (forall i c, nth_error reg i = Some c -> wf_cls reg i c).
  Proof.
    induction 1 as [|reg d c HR [HL IH] Hb Hm Hc|reg sp d c HR [HL IH] Hb Hm Hc].
    - split; [cbn; auto|]. intros [|[|i]] c H; cbn in H; try (destruct i; discriminate); inv H.
      + split; [eexists; reflexivity|]. split; intros x [<-|[]]; auto.
      + split; [eexists; reflexivity|]. split; intros x [<-|[<-|[]]]; auto.
    - split; [rewrite app_length; lia|]. intros i c' Hi. pose proof Hi as Hi0. destruct (reach_split reg c i) as [E|E].
      + rewrite E in Hi. apply wf_app; [|auto]. apply nth_error_lt in Hi. lia.
      + subst i. rewrite nth_error_app2, Nat.sub_diag in Hi by auto. cbn in Hi. inv Hi.
        apply create_module_inv in Hc as (_ & Hd & Hc3 & _). apply wf_app; auto.
        split; [eapply c3_hd; eauto|].
        assert (HM : forall x, In x (c_mro c') -> x = length reg \/ exists b, In b (d_bases d) /\ b < length reg /\ In x (mro_of reg b)).
        { intros x Hx. destruct (c3_In _ _ _ _ _ Hc3 Hx) as [?|[Hxb|(b & Hbb & Hxb)]]; auto.
          - right. exists x. split; auto. split; auto. destruct (nth_error_ge_ex reg x (Hb x Hxb)) as [cx Hcx].
            unfold mro_of. rewrite Hcx. destruct (IH _ _ Hcx) as ((l & ->) & _). left; auto.
          - right. exists b. auto. }
        split.
        * intros x Hx. destruct (HM x Hx) as [->|(b & Hbb & Hlt & Hxb)]; auto. unfold mro_of in Hxb.
          destruct (nth_error reg b) as [cb|] eqn:Eb; [|destruct Hxb]. destruct (IH _ _ Eb) as (_ & H2 & _). specialize (H2 x Hxb). lia.
        * intros x Hx. rewrite Hd. destruct (HM x Hx) as [->|H]; auto.
    - split; [rewrite app_length; lia|]. intros i c' Hi. pose proof Hi as Hi0. destruct (reach_split reg c i) as [E|E].
      + rewrite E in Hi. apply wf_app; [|auto]. apply nth_error_lt in Hi. lia.
      + subst i. rewrite nth_error_app2, Nat.sub_diag in Hi by auto. cbn in Hi. inv Hi.
        unfold create_plain in Hc. apply bind_ok in Hc as (mro & Hc3 & Hc). inv Hc. apply wf_app; auto.
        split; [eapply c3_hd; eauto|].
        assert (HM : forall x, In x mro -> x = length reg \/ exists b, In b (d_bases d) /\ b < length reg /\ In x (mro_of reg b)).
        { intros x Hx. destruct (c3_In _ _ _ _ _ Hc3 Hx) as [?|[Hxb|(b & Hbb & Hxb)]]; auto.
          - right. exists x. split; auto. split; auto. destruct (nth_error_ge_ex reg x (Hb x Hxb)) as [cx Hcx].
            unfold mro_of. rewrite Hcx. destruct (IH _ _ Hcx) as ((l & ->) & _). left; auto.
          - right. exists b. auto. }
        split.
        * intros x Hx. destruct (HM x Hx) as [->|(b & Hbb & Hlt & Hxb)]; auto. unfold mro_of in Hxb.
          destruct (nth_error reg b) as [cb|] eqn:Eb; [|destruct Hxb]. destruct (IH _ _ Eb) as (_ & H2 & _). specialize (H2 x Hxb). lia.
        * intros x Hx. cbn. destruct (HM x Hx) as [->|H]; auto.
  Qed.

  (** How each class of a reachable registry was created; [reg0] is the registry at that time. *)
  Lemma reach_created reg : reachable reg -> forall i c, nth_error reg i = Some c ->
    i < 2 \/ exists reg0 rest, reg = reg0 ++ c :: rest /\ length reg0 = i /\ reachable reg0 /\
      (forall b, In b (d_bases (c_def c)) -> b < i) /\
      (create_module reg0 (c_def c) = Ok c \/ exists sp, create_plain sp reg0 (c_def c) = Ok c /\ c_kind c <> KModule).
  Proof.
    induction 1 as [|reg d c HR IH Hb Hm Hc|reg sp d c HR IH Hb Hm Hc]; intros i c' Hi.
    - left. apply nth_error_lt in Hi. cbn in Hi. auto.
    - destruct (reach_split reg c i) as [E|E].
      + rewrite E in Hi. destruct (IH _ _ Hi) as [?|(reg0 & rest & -> & Hl & Hr)]; auto. right. exists reg0, (rest ++ [c]).
        rewrite <- app_assoc. split; auto.
      + subst i. rewrite nth_error_app2, Nat.sub_diag in Hi by auto. cbn in Hi. inv Hi. right. exists reg, [].
        assert (Hd : c_def c' = d) by (apply create_module_inv in Hc; tauto).
        split; auto. split; auto. split; auto. rewrite Hd. auto.
    - destruct (reach_split reg c i) as [E|E].
      + rewrite E in Hi. destruct (IH _ _ Hi) as [?|(reg0 & rest & -> & Hl & Hr)]; auto. right. exists reg0, (rest ++ [c]).
        rewrite <- app_assoc. split; auto.
      + subst i. rewrite nth_error_app2, Nat.sub_diag in Hi by auto. cbn in Hi. inv Hi. right. exists reg, [].
        assert (Hd : c_def c' = d /\ c_kind c' <> KModule).
        { unfold create_plain in Hc. apply bind_ok in Hc as (mro & Hc3 & Hc). inv Hc. cbn. split; auto. destruct sp; discriminate. }
        destruct Hd as [Hd Hk]. split; auto. split; auto. split; auto. rewrite Hd. split; auto. right. exists sp. auto.
  Qed.

  (** ** Strict modules *)
  Definition created_strict (reg : registry) (i : nat) (c : cls) : Prop :=
    nth_error reg i = Some c /\ c_strict c = true.

  Lemma strict_created reg i c : reachable reg -> created_strict reg i c ->
    exists reg0 rest cfg, reg = reg0 ++ c :: rest /\ length reg0 = i /\ reachable reg0 /\
      (forall b, In b (d_bases (c_def c)) -> b < i) /\ d_strict (c_def c) = Some cfg /\
      create_module reg0 (c_def c) = Ok c /\ check_strict magic cfg reg0 c = Ok tt.
  Proof.
    intros HR [Hi Hs]. destruct (reach_created reg HR i c Hi) as [Hlt|(reg0 & rest & -> & Hl & Hr & Hb & Hc)].
    - exfalso. assert (forall r, reachable r -> nth_error r 0 = Some object_cls /\ nth_error r 1 = Some module_cls) as HS.
      { induction 1 as [|r d c0 HR0 [A B] _ _ _|r sp d c0 HR0 [A B] _ _ _]; [auto| |];
          split; rewrite nth_error_app1; auto; apply nth_error_Some; congruence. }
      destruct (HS reg HR) as [A B]. destruct i as [|[|i]]; [| |lia].
      + rewrite A in Hi. inv Hi. discriminate.
      + rewrite B in Hi. inv Hi. discriminate.
    - destruct Hc as [Hc|(sp & Hc & _)].
      + pose proof (create_module_inv _ _ _ Hc) as (_ & _ & _ & _ & _ & _ & HS & _ & HC).
        destruct (d_strict (c_def c)) as [cfg|] eqn:E; [|exfalso; apply HS in Hs; auto].
        exists reg0, rest, cfg. do 6 (split; [auto|]). apply HC; auto.
      + unfold create_plain in Hc. apply bind_ok in Hc as (mro & _ & Hc). injection Hc as Hc. rewrite <- Hc in Hs. discriminate.
  Qed.

  Lemma check_strict_inv cfg reg c : check_strict magic cfg reg c = Ok tt ->
    (forall b, In b (d_bases (c_def c)) -> check_base reg c b = Ok tt) /\ check_name cfg c = Ok tt /\
    (forall n a, In (n, a) (d_dict (c_def c)) -> is_function a = true -> magic n = false -> attr_abstract a = false ->
      forall b, In b (d_bases (c_def c)) -> check_override cfg reg n b = Ok tt).
  Proof.
    unfold check_strict. intros H. apply bind_ok in H as (us & H1 & H). apply bind_ok in H as ([] & H2 & H).
    apply bind_ok in H as (vs & H3 & _).
    assert (HA : forall {X} (f : X -> res unit) l ys, mapM f l = Ok ys -> forall x, In x l -> f x = Ok tt).
    { intros X f l. induction l as [|y l IH]; intros ys Hl x HX; [destruct HX|destruct HX as [->|Hx]]; cbn in Hl;
        apply bind_ok in Hl as (u & Hu & Hl); apply bind_ok in Hl as (us' & Hus & _); [destruct u; auto|eauto]. }
    split; [eapply HA; eauto|]. split; auto. intros n a Hin Hf Hm Ha b Hb.
    pose proof (HA _ _ _ _ H3 (n, a) Hin) as HX. unfold check_method in HX. rewrite Hf, Hm, Ha in HX. cbn in HX.
    apply bind_ok in HX as (ws & Hws & _). eapply HA; eauto.
  Qed.

  (** Bases of a strict class. *)
  Lemma strict_bases reg i c b : reachable reg -> created_strict reg i c -> In b (d_bases (c_def c)) ->
    b = module_id \/ exists cb, nth_error reg b = Some cb /\
      (c_kind cb = KSpecial \/ c_kind cb = KModule /\ c_strict cb = true /\ is_abstract cb = true /\
        (c_fields cb <> [] \/ c_dc_init cb = false ->
           length (c_fields c) = length (c_fields cb) /\ d_has_init (c_def c) = false)).
  Proof.
    intros HR HS Hb. destruct (strict_created reg i c HR HS) as (reg0 & rest & cfg & -> & Hl & Hr & Hlt & Hst & Hc & Hck).
    apply check_strict_inv in Hck as (HB & _ & _). specialize (HB b Hb). specialize (Hlt b Hb). unfold check_base in HB.
    destruct (Nat.eqb_spec b module_id); auto. right.
    destruct (nth_error reg0 b) as [cb|] eqn:E; [|discriminate]. exists cb. split; [rewrite nth_error_app1; [auto|lia]|].
    destruct (c_kind cb); [right|left; auto|discriminate]. split; auto.
    destruct (c_strict cb); cbn in HB; [|discriminate]. split; auto.
    destruct (is_abstract cb); cbn in HB; [|discriminate]. split; auto.
    intros HF. assert (HQ : negb (Nat.eqb (length (c_fields cb)) 0) || negb (c_dc_init cb) = true).
    { destruct HF as [HF|HF]; [|rewrite HF; apply orb_true_r]. destruct (c_fields cb); [congruence|auto]. }
    rewrite HQ in HB. destruct (Nat.eqb_spec (length (c_fields c)) (length (c_fields cb))); cbn in HB; [|discriminate].
    split; auto. destruct (d_has_init (c_def c)); [discriminate|auto].
  Qed.

  (** Every class in the MRO of a strict class. *)
  Definition exempt (reg : registry) (x : nat) : Prop :=
    In x (mro_of reg module_id) \/ exists s cs, nth_error reg s = Some cs /\ c_kind cs = KSpecial /\ In x (c_mro cs).
  Lemma strict_ancestors reg : reachable reg -> forall i c, created_strict reg i c -> forall x, In x (c_mro c) ->
    x = i \/ exempt reg x \/ exists cx, nth_error reg x = Some cx /\ c_kind cx = KModule /\ c_strict cx = true /\ is_abstract cx = true.
  Proof.
    intros HR i. induction i as [i IH] using (well_founded_induction lt_wf). intros c HS x Hx.
    destruct (reach_wf reg HR) as [_ HW]. destruct (HW i c (proj1 HS)) as (_ & _ & H3).
    destruct (H3 x Hx) as [->|[[-> ->]|(b & Hb & Hlt & Hin)]]; auto.
    { right. left. left. assert (c_strict c = false) as E; [|destruct HS as [_ HS]; congruence].
      assert (forall r, reachable r -> nth_error r 1 = Some module_cls) as HM.
      { induction 1 as [|r d c0 HR0 A _ _ _|r sp d c0 HR0 A _ _ _]; [auto| |]; rewrite nth_error_app1; auto; apply nth_error_Some; congruence. }
      destruct HS as [HS _]. rewrite (HM reg HR) in HS. inv HS. auto. }
    destruct (strict_bases reg i c b HR HS Hb) as [->|(cb & Ecb & [Hk|(Hk & Hst & Hab & _)])].
    - right. left. left. auto.
    - right. left. right. exists b, cb. split; auto. split; auto. unfold mro_of in Hin. rewrite Ecb in Hin. auto.
    - unfold mro_of in Hin. rewrite Ecb in Hin.
      destruct (IH b Hlt cb (conj Ecb Hst) x Hin) as [->|H]; auto. right. right. exists cb. auto.
  Qed.

  Lemma defs_along_app (reg rest : registry) l : (forall x, In x l -> x < length reg) -> defs_along (reg ++ rest) l = defs_along reg l.
  Proof.
    induction l as [|x l IH]; intros H; cbn; auto. rewrite nth_error_app1 by (apply H; left; auto). f_equal. apply IH. intros; apply H; right; auto.
  Qed.

  (** A concrete method of a strict class against its bases. *)
  Lemma strict_override reg i c n a b : reachable reg -> created_strict reg i c ->
    (forall cfg, d_strict (c_def c) = Some cfg -> allow_method_override cfg = false) ->
    In (n, a) (d_dict (c_def c)) -> is_function a = true -> magic n = false -> attr_abstract a = false ->
    In b (d_bases (c_def c)) ->
    match resolve (defs_along reg (mro_of reg b)) n with None => True | Some old => old = Fun true end.
  Proof.
    intros HR HS Hov Hin Hf Hm Ha Hb.
    destruct (strict_created reg i c HR HS) as (reg0 & rest & cfg & E & Hl & Hr & Hlt & Hst & Hc & Hck).
    apply check_strict_inv in Hck as (_ & _ & HO). specialize (HO n a Hin Hf Hm Ha b Hb). specialize (Hlt b Hb).
    unfold check_override in HO. rewrite (Hov cfg Hst) in HO.
    assert (HE : defs_along reg (mro_of reg b) = defs_along reg0 (mro_of reg0 b)).
    { subst reg. assert (mro_of (reg0 ++ c :: rest) b = mro_of reg0 b) as ->.
      { unfold mro_of. rewrite nth_error_app1; [auto|lia]. }
      apply defs_along_app. intros x Hx. unfold mro_of in Hx. destruct (nth_error reg0 b) as [cb|] eqn:Eb; [|destruct Hx].
      destruct (reach_wf reg0 Hr) as [_ HW]. destruct (HW b cb Eb) as (_ & H2 & _). specialize (H2 x Hx). lia. }
    rewrite HE. destruct (resolve (defs_along reg0 (mro_of reg0 b)) n) as [old|]; auto.
    destruct old as [ab|ab]; cbn in HO; [|discriminate]. destruct ab; [auto|discriminate].
  Qed.

  (** [resolve] finds the first definition. *)
  Lemma resolve_spec ds n a : resolve ds n = Some a <->
    exists i d, nth_error ds i = Some d /\ aget (d_dict d) n = Some a /\
      forall j e, j < i -> nth_error ds j = Some e -> aget (d_dict e) n = None.
  Proof.
    induction ds as [|d ds IH]; cbn.
    - split; [discriminate|]. intros (i & d & H & _). destruct i; discriminate.
    - destruct (aget (d_dict d) n) as [a'|] eqn:E.
      + split.
        * intros H; inv H. exists 0, d. split; auto. split; auto. intros j e Hlt. lia.
        * intros (i & e & Hi & He & Hj). destruct i as [|i]; cbn in Hi; [inv Hi; congruence|].
          specialize (Hj 0 d ltac:(lia) eq_refl). congruence.
      + rewrite IH. split.
        * intros (i & e & Hi & He & Hj). exists (S i), e. split; auto. split; auto. intros [|j] f Hlt Hf; cbn in Hf; [inv Hf; auto|]. eapply Hj; [|eauto]. lia.
        * intros (i & e & Hi & He & Hj). destruct i as [|i]; cbn in Hi; [inv Hi; congruence|]. exists i, e. split; auto. split; auto.
          intros j f Hlt Hf. apply (Hj (S j)); [lia|auto].
  Qed.
  Lemma resolve_none ds n : resolve ds n = None <-> forall d, In d ds -> aget (d_dict d) n = None.
  Proof.
    induction ds as [|d ds IH]; cbn; [split; auto; intros _ d []|].
    destruct (aget (d_dict d) n) eqn:E.
    - split; [discriminate|]. intros H. specialize (H d (or_introl eq_refl)). congruence.
    - rewrite IH. split; [intros H e [<-|He]; auto|auto].
  Qed.

  (** Fields: the last annotation of the class itself decides, and otherwise the last base. *)
  Lemma aget_set_field n b fs m : aget (set_field n b fs) m = if Nat.eqb n m then Some b else aget fs m.
  Proof.
    induction fs as [|[k c] fs IH]; cbn; [reflexivity|].
    destruct (Nat.eqb_spec k n) as [->|Hk]; cbn.
    - destruct (Nat.eqb n m); reflexivity.
    - rewrite IH. destruct (Nat.eqb_spec k m) as [->|]; auto.
      destruct (Nat.eqb_spec n m); congruence.
  Qed.
End Reg.
