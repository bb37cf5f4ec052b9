(** C114: a model and its state come back from a file. *)
From Verif Require Import Tree_Facts State_Spec State_Proofs State_Props Tree_Rel Leafwise.
From Verif Require Import Serial_Spec Serial_Proofs Serial_Props SerialFile_Props Resume_Model Resume_Props StateFile_Model.
Local Open Scope nat_scope.
Local Open Scope list_scope.

(** ** Vocabulary *)
Definition array_struct (a : leaf) : option (list nat * dty) := match a with JArr x => Some (sh x, dt x) | _ => None end.
(** Two models as they come from the same constructor, perhaps in different processes: [StateIndex]es in the same places, the
    initial values of the same structures, shapes and dtypes, other leaves of the same types. The markers are different objects. *)
Section Alike.
  Variable x64 : bool.
  Variable asarray : leaf -> res leaf.
  Inductive alike : @State_Model.mleaf leaf -> @State_Model.mleaf leaf -> Prop :=
  | A_index m m' u u' : (forall v v', as_arrays asarray u = Ok v -> as_arrays asarray u' = Ok v' -> structs array_struct v = structs array_struct v') ->
      alike (Idx m (Some u)) (Idx m' (Some u'))
  | A_other a b : kept x64 a b -> alike (State_Model.Other a) (State_Model.Other b).
  (** A trained model and the model it was trained from: parameters have other values. *)
  Inductive trained : @State_Model.mleaf leaf -> @State_Model.mleaf leaf -> Prop :=
  | T_index m : trained (Idx m None) (Idx m None)
  | T_other a b : kept x64 a b -> trained (State_Model.Other a) (State_Model.Other b).
End Alike.

Lemma kept_trans x64 a b c : kept x64 a b -> kept x64 b c -> kept x64 a c.
Proof. intros H K. destruct H; inversion K; subst; constructor; try congruence; auto. Qed.
Lemma trained_kept x64 pk ik m m2 : trel (trained x64) m m2 -> trel (kept x64) (model_tree pk ik m) (model_tree pk ik m2).
Proof.
  unfold model_tree. revert m2. induction m as [a| |k cs IH] using tree_ind'; intros m2 H; inversion H as [? b HK| |? ? ds HF]; subst; cbn [tmap no_leaf].
  - destruct HK; repeat constructor; auto.
  - constructor.
  - constructor. clear H. revert ds HF. induction IH as [|c cs Hc _ IHc]; intros ds HF; inversion HF; subst; cbn [map]; constructor; auto.
Qed.
(** A value with the structure of arrays that can be stored. *)
Lemma structs_kept x64 (v u : obj) : structs array_struct v = structs array_struct u -> Forall (fun t => exists x, t = Leaf (JArr x) /\ jax_storable x64 (dt x)) (leaves no_leaf u) ->
  trel (kept x64) v u.
Proof.
  revert u. induction v as [a| |k cs IH] using tree_ind'; intros [b| |k' ds] E F; cbn [structs] in E; try discriminate.
  - constructor. cbn [leaves no_leaf] in F. inversion F as [|? ? [x [E1 Hx]] _]; subst. injection E1 as ->. cbn [array_struct] in E. injection E as E.
    destruct a as [y| | | | |]; cbn [array_struct] in E; try discriminate. injection E as E1 E2. constructor; congruence.
  - constructor.
  - injection E as -> E. constructor. cbn [leaves no_leaf] in F. revert ds E F. induction IH as [|c cs Hc _ IHc]; intros [|e ds] E F; try discriminate; constructor.
    + injection E as E1 E2. apply Hc; [exact E1|]. cbn [map concat] in F. apply Forall_app in F. tauto.
    + injection E as E1 E2. apply IHc; [exact E2|]. cbn [map concat] in F. apply Forall_app in F. tauto.
Qed.
Lemma as_arrays_leaves (asarray : leaf -> res leaf) (P : leaf -> Prop) : (forall a b, asarray a = Ok b -> P b) -> forall u v, as_arrays asarray u = Ok v ->
  Forall (fun t => exists b, t = Leaf b /\ P b) (leaves no_leaf v).
Proof.
  intros HP. induction u as [a| |k cs IH] using tree_ind'; intros v H; cbn [as_arrays] in H.
  - destruct (asarray a) as [b|e] eqn:E; [|discriminate]. injection H as <-. repeat constructor. eauto.
  - injection H as <-. constructor.
  - destruct (mapM (as_arrays asarray) cs) as [vs|e] eqn:E; [|discriminate]. injection H as <-. cbn [leaves no_leaf].
    revert vs E. induction IH as [|c cs Hc _ IHc]; intros vs E; cbn [mapM] in E; [injection E as <-; constructor|].
    apply bind_ok in E as (v & E1 & E). apply bind_ok in E as (vs' & E2 & E). injection E as <-. cbn [map concat]. apply Forall_app. auto.
Qed.
(** The like is the model itself or its skeleton. *)
Definition like_leaf (f : leaf -> leaf) : Prop := f = (fun a => a) \/ f = skel_leaf.
Lemma side_like x64 f m made : like_leaf f -> trel (kept x64) m made -> side_by_side no_leaf (expected x64) m (lw (fun a => Leaf (f a)) made) m.
Proof. intros [-> | ->] H; [rewrite lw_id; apply side_same; exact H|apply side_skel; exact H]. Qed.
Lemma trained_trans x64 a b c : trel (trained x64) a b -> trel (trained x64) b c -> trel (trained x64) a c.
Proof.
  revert b c. induction a as [x| |k cs IH] using tree_ind'; intros b c H K; inversion H as [? y H1| |? ? ds HF]; subst; inversion K as [? z K1| |? ? es KF]; subst; constructor.
  - destruct H1; inversion K1; subst; constructor. eapply kept_trans; eauto.
  - clear H K. revert ds es HF KF. induction IH as [|t ts Ht _ IHt]; intros ds es HF KF; inversion HF; subst; inversion KF; subst; constructor; eauto.
Qed.
(** What is saved of a model: every leaf in its place, of an index without initial value its marker. *)
Theorem C114_saved : forall sentinel_kind index_kind (m : tree (@State_Model.mleaf leaf)) q,
  (forall a, Tree_Facts.sub m q = Some (Leaf (State_Model.Other a)) -> Tree_Facts.sub (model_tree sentinel_kind index_kind m) q = Some (Leaf a)) /\
  (forall k, Tree_Facts.sub m q = Some (Leaf (Idx k None)) ->
     Tree_Facts.sub (model_tree sentinel_kind index_kind m) q = Some (Node (index_kind k) [Node sentinel_kind []])) /\
  (forall k v, Tree_Facts.sub m q = Some (Leaf (Idx k (Some v))) -> Tree_Facts.sub (model_tree sentinel_kind index_kind m) q = Some (Node (index_kind k) [v])).
Proof.
  intros sk ik. assert (G : forall q m l, Tree_Facts.sub m q = Some (Leaf l) ->
    Tree_Facts.sub (model_tree sk ik m) q = Some (model_tree sk ik (Leaf l))).
  { induction q as [|i q IH]; intros m l H; [injection H as ->; reflexivity|]. destruct m as [a| |k cs]; try discriminate. cbn [Tree_Facts.sub] in H.
    unfold model_tree. cbn [tmap no_leaf Tree_Facts.sub]. rewrite nth_error_map. destruct (nth_error cs i) as [c|]; [|discriminate]. exact (IH c l H). }
  intros m q. repeat split; intros; rewrite (G q m _ H); reflexivity.
Qed.
Print Assumptions C114_saved.

Section RoundTrip.
  Variable x64 : bool.
  Variable cast : dty -> dty -> Z -> Z.
  Variable ctor : target -> dty -> Z -> res Z.
  Hypothesis F : faithful cast ctor.
  Variables (pair_kind sentinel_kind : nat).
  Variable index_kind : marker -> nat.
  Variable state_kind : list marker -> nat.
  Variable keys_of : nat -> option (list marker).
  Hypothesis keys_back : forall ks, keys_of (state_kind ks) = Some ks.
  Variable asarray : leaf -> res leaf.
  Hypothesis arrays : forall a b, asarray a = Ok b -> exists x, b = JArr x /\ jax_storable x64 (dt x).
  Variable seqb : option (list nat * dty) -> option (list nat * dty) -> bool.
  Local Notation save_all := (save_all pair_kind sentinel_kind index_kind state_kind).
  Local Notation load_all := (load_all x64 cast ctor pair_kind state_kind keys_of).
  Local Notation model_tree := (model_tree sentinel_kind index_kind).

  Lemma alike_num l1 l2 : Forall2 (lrel (alike x64 asarray)) l1 l2 -> forall i, num_idx (firstn i l1) = num_idx (firstn i l2).
  Proof using. clear arrays F keys_back keys_of cast ctor seqb state_kind index_kind pair_kind sentinel_kind. induction 1 as [|a b l1 l2 H _ IH]; intros [|i]; cbn [firstn]; auto. destruct H as [? ? []]; cbn [num_idx]; auto. Qed.
  Lemma alike_inits l1 l2 vs1 vs2 : Forall2 (lrel (alike x64 asarray)) l1 l2 ->
    Forall2 (fun o v => exists u, o = Some u /\ as_arrays asarray u = Ok v) (inits l1) vs1 ->
    Forall2 (fun o v => exists u, o = Some u /\ as_arrays asarray u = Ok v) (inits l2) vs2 ->
    Forall2 (fun v1 v2 => structs array_struct v1 = structs array_struct v2) vs1 vs2.
  Proof using. clear arrays F keys_back keys_of cast ctor seqb state_kind index_kind pair_kind sentinel_kind.
    intros H. revert vs1 vs2. induction H as [|a b l1 l2 H _ IH]; intros vs1 vs2 H1 H2; cbn [inits] in *.
    - inversion H1; inversion H2; constructor.
    - destruct H as [? ? []]; cbn [inits] in *; [|auto]. inversion H1 as [|? ? ? ? (u1 & E1 & A1) R1]; subst. inversion H2 as [|? ? ? ? (u2 & E2 & A2) R2]; subst.
      injection E1 as <-. injection E2 as <-. constructor; eauto.
  Qed.
  Lemma makes_trained h0 k0 model1 model2 h1 k1 m1 m2 s1 s2 : trel (alike x64 asarray) model1 model2 ->
    make_with_state asarray h0 model1 = (h1, Ok (m1, s1)) -> make_with_state asarray k0 model2 = (k1, Ok (m2, s2)) -> trel (trained x64) m1 m2.
  Proof using. clear arrays F keys_back keys_of cast ctor seqb state_kind index_kind pair_kind sentinel_kind.
    intros HA H1 H2. apply C19_make in H1 as (D1 & L1 & N1 & _). apply C19_make in H2 as (D2 & L2 & N2 & _).
    pose proof (trel_treedef _ _ _ HA) as HD. pose proof (trel_leaves _ _ _ HA) as HL. pose proof (Forall2_length' _ _ _ HL) as HN.
    apply trel_of_leaves; [congruence|].
    assert (HE : List.length (leaves no_leaf m1) = List.length (leaves no_leaf m2)) by congruence.
    assert (HI : forall i a b, nth_error (leaves no_leaf m1) i = Some a -> nth_error (leaves no_leaf m2) i = Some b -> lrel (trained x64) a b).
    { intros i a b Ha Hb. assert (Hi : i < List.length (leaves no_leaf model1)) by (rewrite <- L1; apply nth_error_Some; congruence).
      destruct (nth_error (leaves no_leaf model1) i) as [a0|] eqn:E1; [|apply nth_error_None in E1; lia].
      destruct (nth_error (leaves no_leaf model2) i) as [b0|] eqn:E2; [|apply nth_error_None in E2; lia].
      rewrite (N1 _ _ E1) in Ha. rewrite (N2 _ _ E2) in Hb. injection Ha as <-. injection Hb as <-.
      assert (HR : lrel (alike x64 asarray) a0 b0).
      { clear -HL E1 E2. revert i E1 E2. induction HL as [|x y l r Hxy _ IH]; intros [|i] E1 E2; cbn in *; try discriminate; [congruence|eauto]. }
      rewrite (alike_num _ _ HL i). destruct HR as [? ? []]; constructor; constructor; auto. }
    clear -HE HI. revert HE HI. generalize (leaves no_leaf m1) (leaves no_leaf m2). induction l as [|a l IH]; intros [|b r] HE HI; try discriminate; constructor.
    - apply (HI 0); reflexivity.
    - apply IH; [injection HE as HE; exact HE|]. intros i x y Hx Hy. apply (HI (S i)); assumption.
  Qed.
  Lemma keys_number {V} (vs ws : list (tree V)) : List.length vs = List.length ws -> forall c, keys (number c vs) = keys (number c ws).
  Proof using. revert ws. induction vs as [|v vs IH]; intros [|w ws] H c; try discriminate; cbn; [reflexivity|]. unfold keys in *. f_equal. apply IH. injection H as H. exact H. Qed.

  Lemma number_NoDup {V} (vs : list (tree V)) c : NoDup (keys (number c vs)).
  Proof using. revert c. induction vs as [|v vs IH]; intros c; cbn; constructor; [|apply IH].
    intros H. apply in_map_iff in H as ([q u] & E & H). cbn [fst] in E. subst q. apply In_nth_error in H as [i H]. rewrite C19_number in H.
    destruct (nth_error vs i); [|discriminate]. injection H as H _. lia.
  Qed.
  (** One process makes a model with its state ([m1], [s1]), trains both into [m] and [s'], and saves. Another makes them anew
      ([m2], [s2]), or their skeleton (by [filter_eval_shape]), and loads: it gets the trained model, and a new state with the
      trained contents. *)
  Theorem C114_round_trip : forall h0 model1 h1 m1 s1 k0 model2 k1 m2 s2 w h' s' G m d2 f k s,
    make_with_state asarray h0 model1 = (h1, Ok (m1, s1)) -> make_with_state asarray k0 model2 = (k1, Ok (m2, s2)) ->
    trel (alike x64 asarray) model1 model2 -> trel (trained x64) m m1 ->
    lineage asarray array_struct seqb h1 s1 w h' s' -> typed array_struct G h1 -> typed array_struct G h' ->
    like_leaf f -> deref k1 s2 = Some d2 -> deref k s = Some (map (fun e => (fst e, lw (fun a => Leaf (f a)) (snd e))) d2) ->
    (forall d p q, with_suffix p = Ok q -> dirs d q = false -> dirs d (parent q) = true -> exists d', save_all d p h' m s' = (d', POk tt)) /\
    (forall d d' p p', save_all d p h' m s' = (d', POk tt) -> with_suffix p' = with_suffix p ->
       exists k' s3, load_all d' p' k (lw (fun a => Leaf (f a)) (model_tree m2)) s = (k', POk (model_tree m, s3)) /\
         deref k' s3 = deref h' s' /\ s3 = List.length k /\ forall x, x < List.length k -> deref k' x = deref k x).
  Proof.
    intros h0 model1 h1 m1 s1 k0 model2 k1 m2 s2 w h' s' G m d2 f k s H1 H2 HA HT HL G1 G2 Hf D2 DK.
    pose proof (makes_trained _ _ _ _ _ _ _ _ _ _ HA H1 H2) as HM. pose proof (trained_trans _ _ _ _ HT HM) as HM2.
    apply C19_make in H1 as (_ & _ & _ & vs1 & V1 & E1 & ->). apply C19_make in H2 as (_ & _ & _ & vs2 & V2 & E2 & ->).
    assert (D1 : deref h1 (List.length h0) = Some (number 0 vs1)) by (subst h1; apply deref_new).
    assert (D2' : deref k1 (List.length k0) = Some (number 0 vs2)) by (subst k1; apply deref_new).
    rewrite D2' in D2. injection D2 as <-.
    pose proof (alike_inits _ _ _ _ (trel_leaves _ _ _ HA) V1 V2) as HV.
    destruct (C17_last_write _ _ _ _ _ _ _ _ _ _ _ HL D1) as (d' & DF & KD & _).
    assert (KK : keys d' = keys (number 0 vs2)) by (rewrite KD; apply keys_number; eapply Forall2_length'; eauto).
    assert (TS : Forall2 (trel (kept x64)) (map snd d') (map snd (number 0 vs2))).
    { assert (HK : forall e1 e2 i, nth_error d' i = Some e1 -> nth_error (number 0 vs2) i = Some e2 -> fst e1 = fst e2 -> trel (kept x64) (snd e1) (snd e2)).
      { intros [q1 v1] [q2 v2] i N1 N2 EK. cbn [fst snd] in *. subst q2. rewrite C19_number in N2. destruct (nth_error vs2 i) as [u2|] eqn:U2; [|discriminate].
        cbn [option_map] in N2. injection N2 as <- <-. apply structs_kept.
        - destruct (nth_error vs1 i) as [u1|] eqn:U1; [|apply nth_error_None in U1; pose proof (Forall2_length' _ _ _ HV) as HQ; assert (nth_error vs2 i <> None) as HX by congruence; apply nth_error_Some in HX; lia].
          transitivity (structs array_struct u1).
          + transitivity (G (MInt (0 + i))); [eapply G2; [exact DF|eapply nth_error_In; exact N1]|].
            symmetry. eapply G1; [exact D1|]. apply (nth_error_In _ i). rewrite C19_number, U1. reflexivity.
          + clear -HV U1 U2. revert i U1 U2. induction HV as [|a b l r Hab _ IH]; intros [|i] U1 U2; cbn in *; try discriminate; [congruence|eauto].
        - assert (HX : exists o u, o = Some u /\ as_arrays asarray u = Ok u2).
          { clear -V2 U2. revert i U2. induction V2 as [|o v l r (u & Eo & Eu) _ IH]; intros [|i] U2; cbn in *; try discriminate; [injection U2 as <-; eauto|eauto]. }
          destruct HX as (o & u & _ & EU). pose proof (as_arrays_leaves asarray _ arrays u u2 EU) as HQ. eapply Forall_impl; [|exact HQ]. intros t (b & -> & x & -> & Hx). eauto. }
      clear -HK KK. revert HK KK. generalize (number 0 vs2). induction d' as [|e d' IH]; intros [|e2 l] HK KK; try discriminate; cbn [map]; constructor.
      - apply (HK e e2 0); try reflexivity. injection KK as KK _. exact KK.
      - apply IH; [|injection KK as _ KK; exact KK]. intros e1 e3 i Q1 Q2. apply (HK e1 e3 (S i)); assumption. }
    assert (SD : side_by_side no_leaf (expected x64) (Node pair_kind [model_tree m; Node (state_kind (keys d')) (map snd d')])
      (Node pair_kind [lw (fun a => Leaf (f a)) (model_tree m2); Node (state_kind (keys d')) (map (fun e => lw (fun a => Leaf (f a)) (snd e)) (number 0 vs2))])
      (Node pair_kind [model_tree m; Node (state_kind (keys d')) (map snd d')])).
    { pose proof (side_like x64 f (Node pair_kind [model_tree m; Node (state_kind (keys d')) (map snd d')]) (Node pair_kind [model_tree m2; Node (state_kind (keys d')) (map snd (number 0 vs2))]) Hf) as HS.
      cbn [lw map] in HS. rewrite map_map in HS. apply HS. constructor. constructor; [apply trained_kept; exact HM2|]. constructor; [|constructor]. constructor. exact TS. }
    assert (ST : state_tree state_kind h' s' = Ok (Node (state_kind (keys d')) (map snd d'))) by (unfold state_tree, state_flatten; rewrite DF; reflexivity).
    assert (SK : state_tree state_kind k s = Ok (Node (state_kind (keys d')) (map (fun e => lw (fun a => Leaf (f a)) (snd e)) (number 0 vs2)))).
    { unfold state_tree, state_flatten. rewrite DK. cbn [bind]. rewrite map_map. unfold keys at 1. rewrite map_map. cbn [fst snd]. rewrite KK. reflexivity. }
    destruct (C20_round_trip x64 cast ctor no_leaf _ _ _ F SD) as (fl & Hfl & HLd). split.
    - intros d p q Hp Q1 Q2. destruct (C101_save no_leaf _ _ fl d p q Hfl Hp Q1 Q2) as (dd & Hd & _). exists dd. unfold StateFile_Model.save_all. rewrite ST. exact Hd.
    - intros d dd p p' HSV EP. unfold StateFile_Model.save_all in HSV. rewrite ST in HSV. unfold StateFile_Model.load_all. rewrite SK.
      assert (HLO : load no_leaf dd p' (Leaf (default_des x64 cast ctor)) (Node pair_kind [lw (fun a => Leaf (f a)) (model_tree m2); Node (state_kind (keys d')) (map (fun e => lw (fun a => Leaf (f a)) (snd e)) (number 0 vs2))])
        = POk (Node pair_kind [model_tree m; Node (state_kind (keys d')) (map snd d')])).
      { assert (HQ : exists q, with_suffix p = Ok q /\ dirs d q = false /\ dirs d (parent q) = true).
        { unfold save in HSV. destruct (with_suffix p) as [q|e]; [|discriminate]. exists q. unfold open_w in HSV. destruct (dirs d q); [discriminate|]. destruct (dirs d (parent q)); [auto|discriminate]. }
        destruct HQ as (q & Q0 & Q1 & Q2). destruct (C101_save no_leaf _ _ fl d p q Hfl Q0 Q1 Q2) as (dd2 & Hd & Hfi). pose proof (eq_trans (eq_sym Hd) HSV) as EQ. injection EQ as <-.
        destruct Hfi as (HD1 & HF1 & _). unfold load. rewrite EP, Q0. unfold open_r. rewrite HD1, Q1, HF1, <- (app_nil_r fl), HLd. reflexivity. }
      unfold obj in HLO |- *. rewrite HLO, keys_back. unfold state_unflatten. unfold keys. rewrite !map_length, Nat.eqb_refl. cbn [alloc].
      assert (HC : List.combine (map fst d') (map snd d') = d') by (clear; induction d' as [|[a b] l IH]; cbn; [|rewrite IH]; reflexivity).
      rewrite HC, from_pairs_id by (rewrite KK; apply number_NoDup). exists (k ++ [Some d']), (List.length k). split; [reflexivity|]. split; [rewrite DF; apply deref_new|]. split; [reflexivity|].
      intros x Hx. apply deref_app. exact Hx.
  Qed.

  (** The order of the entries, on which the file depends, is the order of the indices in the model, whatever has been done to the
      state since. *)
  Theorem C114_order : forall h0 model h1 m s w h' s', make_with_state asarray h0 model = (h1, Ok (m, s)) ->
    lineage asarray array_struct seqb h1 s w h' s' ->
    exists d, deref h' s' = Some d /\ map fst d = map MInt (seq 0 (num_idx (leaves no_leaf model))).
  Proof using. clear arrays F keys_back keys_of cast ctor state_kind index_kind pair_kind sentinel_kind x64.
    intros h0 model h1 m s w h' s' H HL. apply C19_make in H as (_ & _ & _ & vs & V & E & ->).
    assert (D : deref h1 (List.length h0) = Some (number 0 vs)) by (subst h1; apply deref_new).
    destruct (C17_last_write _ _ _ _ _ _ _ _ _ _ _ HL D) as (d' & DF & KD & _). exists d'. split; [exact DF|]. unfold keys in KD. rewrite KD.
    rewrite <- inits_length, (Forall2_length' _ _ _ V). clear. generalize 0. induction vs as [|v vs IH]; intros c; cbn; [reflexivity|]. f_equal. apply IH.
  Qed.
  (** A state that has been used up: saving it raises, and the file, if there was one, is now empty. Nothing can be loaded into it. *)
  Theorem C114_used_up : forall d p q h s m like, deref h s = None -> with_suffix p = Ok q -> dirs d q = false ->
    (dirs d (parent q) = true ->
     exists d', save_all d p h m s = (d', PPath []) /\ files d' q = Some [] /\ forall q', q' <> q -> files d' q' = files d q') /\
    (forall f, files d q = Some f -> load_all d p h like s = (h, PPath [])).
  Proof using. clear arrays F keys_back.
    intros d p q h s m like HD HP Q1. unfold StateFile_Model.save_all, StateFile_Model.load_all, state_tree, state_flatten. rewrite HD. cbn [bind]. rewrite HP. split.
    - intros Q2. unfold open_w. rewrite Q1, Q2. cbn [negb]. eexists. split; [reflexivity|]. unfold store. cbn [files]. split.
      + destruct (path_eq_dec q q); [reflexivity|contradiction].
      + intros q' N. destruct (path_eq_dec q' q); [contradiction|reflexivity].
    - intros f Hf. unfold open_r. rewrite Q1, Hf. reflexivity.
  Qed.
End RoundTrip.
Print Assumptions C114_round_trip.
Print Assumptions C114_order.
Print Assumptions C114_used_up.

(** ** A counter and a running mean. *)
Definition f32 (v : Z) : leaf := JArr {| sh := []; dt := DF32; dat := [v] |}.
Definition vec (v w : Z) : leaf := JArr {| sh := [2]; dt := DF32; dat := [v; w] |}.
Definition ex_kind (ks : list marker) : nat := match ks with [MInt 0; MInt 1] => 10 | [MInt 1; MInt 0] => 11 | _ => 12 end.
Definition ex_keys (k : nat) : option (list marker) := match k with 10 => Some [MInt 0; MInt 1] | 11 => Some [MInt 1; MInt 0] | _ => None end.
Definition ex_index (k : marker) : nat := match k with MInt n => 20 + n | MObj n => 40 + n end.
Definition ex_model (a b : nat) (p : Z) : tree (@State_Model.mleaf leaf) :=
  Node 3 [Leaf (Idx (MObj a) (Some (Leaf (f32 0)))); Leaf (State_Model.Other (vec p p)); Leaf (Idx (MObj b) (Some (Leaf (f32 1))))].
Definition ex_seqb (a b : option (list nat * dty)) : bool :=
  match a, b with Some (s, d), Some (s', d') => (if list_eq_dec Nat.eq_dec s s' then true else false) && (if dty_eq_dec d d' then true else false) | _, _ => false end.
(** Another process, with other parameters and other markers, reads back what [set] wrote to the second index. *)
Example C114_ex :
  exists h1 m1 s1 h2 s2 d' k1 m2 t k2 s3,
    make_with_state (@Ok leaf) [] (ex_model 5 6 0) = (h1, Ok (m1, s1)) /\
    state_set (@Ok leaf) array_struct ex_seqb h1 s1 (Some (MInt 1)) (Leaf (f32 8)) = (h2, Ok s2) /\
    StateFile_Model.save_all 1 2 ex_index ex_kind ex_disk (parse "m") h2 m1 s2 = (d', POk tt) /\
    make_with_state (@Ok leaf) [] (ex_model 9 4 7) = (k1, Ok (m2, t)) /\
    StateFile_Model.load_all false cast0 ctor0 1 ex_kind ex_keys d' (parse "m.eqx") k1 (model_tree 2 ex_index m2) t = (k2, POk (model_tree 2 ex_index m1, s3)) /\
    model_tree 2 ex_index m1 <> model_tree 2 ex_index m2 /\
    state_get k2 s3 (Some (MInt 0)) = Ok (Leaf (f32 0)) /\ state_get k2 s3 (Some (MInt 1)) = Ok (Leaf (f32 8)) /\ state_get k2 t (Some (MInt 1)) = Ok (Leaf (f32 1)).
Proof. do 11 eexists. do 5 (split; [reflexivity|]). split; [discriminate|]. repeat split. Qed.

(** The order matters: of two substates with the same entries, one saved and loaded into the other, the entries are exchanged
    without an error. *)
Theorem C114_substate_order_refuted : exists h s sub1 sub2 h1 h2 d' k1 s3,
  let both := Node 3 [Leaf (Idx (MInt 0) None); Leaf (Idx (MInt 1) None)] in
  let htob := Node 3 [Leaf (Idx (MInt 1) None); Leaf (Idx (MInt 0) None)] in
  state_substate h s both = (h1, Ok sub1) /\ state_substate h1 s htob = (h2, Ok sub2) /\
  (forall i, state_get h2 sub1 (Some i) = state_get h2 sub2 (Some i)) /\
  StateFile_Model.save_all 1 2 ex_index ex_kind ex_disk (parse "m") h2 (Node 0 []) sub1 = (d', POk tt) /\
  StateFile_Model.load_all false cast0 ctor0 1 ex_kind ex_keys d' (parse "m") h2 (Node 0 []) sub2 = (k1, POk (Node 0 [], s3)) /\
  state_get h2 sub1 (Some (MInt 0)) = Ok (Leaf (f32 4)) /\ state_get k1 s3 (Some (MInt 0)) = Ok (Leaf (f32 5)).
Proof.
  exists [Some [(MInt 0, Leaf (f32 4)); (MInt 1, Leaf (f32 5))]], 0. do 7 eexists. cbv zeta. split; [reflexivity|]. split; [reflexivity|]. split.
  - intros i. cbn. destruct i as [n|[|[|n]]]; reflexivity.
  - repeat split.
Qed.
Print Assumptions C114_substate_order_refuted.
