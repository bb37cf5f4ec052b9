(** Lemmas about serialisation. *)
From Verif Require Export Serial_Spec Tree_Facts.

Lemma leafy_omap {S} isl (f : S -> obj -> res (obj * S)) p t s : leafy isl t = true -> omap isl f p t s = at_leaf f p t s.
Proof. unfold leafy. intros H. destruct t; cbn [omap]; destruct (isl _); auto; discriminate. Qed.

(** ** Round trip *)
Section Trip.
  Variable isl : obj -> bool.
  Variable h : ser.
  Variable g : des.
  Definition trips (t l o : obj) : Prop :=
    (exists rs, h t = Ok rs /\ forall rest, g (rs ++ rest) l = Ok (o, rest)) /\ assert_same o l = Ok TNone.
  Definition put (s : file) (y : obj) : res (obj * file) := r <- h y ;; Ok (TNone, s ++ r).

  Lemma omap_trip t l o : side_by_side isl trips t l o ->
    exists rs, (forall p s, exists t', omap isl put p t s = POk (t', s ++ rs)) /\
               (forall p rest, omap isl g p l (rs ++ rest) = POk (o, rest)).
  Proof.
    intros H. pattern t, l, o, H. apply (side_mut isl trips) with
      (P0 := fun ts ls os _ => exists rs, (forall p i s, exists ts', okids (omap isl put) p i ts s = POk (ts', s ++ rs)) /\
               (forall p i rest, okids (omap isl g) p i ls (rs ++ rest) = POk (os, rest))); clear t l o H.
    - intros t l o Ht Hl Ho [(rs & H1 & H2) _]. exists rs. split.
      + intros p s. rewrite leafy_omap by auto. unfold at_leaf, put. rewrite H1. cbn. eauto.
      + intros p rest. rewrite leafy_omap by auto. unfold at_leaf. rewrite H2. auto.
    - intros HN. exists []. cbn [omap]. rewrite HN. split; [intros; rewrite app_nil_r; eauto|auto].
    - intros k ts ls os Ht Hl Ho _ (rs & H1 & H2). exists rs. cbn [omap]. rewrite Ht, Hl. split.
      + intros p s. destruct (H1 p 0 s) as [ts' E]. rewrite E. eauto.
      + intros p rest. rewrite H2. auto.
    - exists []. split; [intros; cbn; rewrite app_nil_r; eauto|auto].
    - intros t l o ts ls os _ (r1 & A1 & A2) _ (r2 & B1 & B2). exists (r1 ++ r2). split.
      + intros p i s. cbn [okids]. destruct (A1 (p ++ [i]) s) as [t' E]. rewrite E. destruct (B1 p (1 + i) (s ++ r1)) as [ts' E']. rewrite E', app_assoc. eauto.
      + intros p i rest. cbn [okids]. rewrite <- app_assoc, A2, B2. auto.
  Qed.
  Lemma trip_assert t l o : side_by_side isl trips t l o -> is_ok (tmap2 isl assert_same o l) = true.
  Proof.
    intros H. pattern t, l, o, H. apply (side_mut isl trips) with
      (P0 := fun ts ls os _ => is_ok (zipM (tmap2 isl assert_same) os ls) = true); clear t l o H.
    - intros t l o _ _ Ho [_ HA]. unfold leafy in Ho. destruct o; cbn [tmap2]; destruct (isl _); try discriminate; rewrite HA; auto.
    - intros HN. cbn [tmap2]. rewrite HN. auto.
    - intros k ts ls os _ _ Ho _ IH. cbn [tmap2]. rewrite Ho, Nat.eqb_refl. destruct (zipM (tmap2 isl assert_same) os ls); auto.
    - auto.
    - intros t l o ts ls os _ IH1 _ IH2. cbn [zipM]. destruct (tmap2 _ _ o l); [|discriminate]. cbn [bind]. destruct (zipM (tmap2 isl assert_same) os ls); [auto|discriminate].
  Qed.
End Trip.

Lemma side_impl isl (R R' : obj -> obj -> obj -> Prop) : (forall t l o, R t l o -> R' t l o) ->
  forall t l o, side_by_side isl R t l o -> side_by_side isl R' t l o.
Proof.
  intros HR t l o H. pattern t, l, o, H. apply (side_mut isl R) with (P0 := fun ts ls os _ => side_list isl R' ts ls os); intros;
    [apply SS_leaf|apply SS_none|apply SS_node|apply SL_nil|apply SL_cons]; auto.
Qed.

Section Default.
  Variable x64 : bool.
  Variable cast : dty -> dty -> Z -> Z.
  Variable ctor : target -> dty -> Z -> res Z.
  Hypothesis cast_id : forall d v, cast d d v = v.
  Hypothesis ctor_np : forall d v, np_storable d \/ d = DBF16 -> ctor (TNp d) d v = Ok v.
  Hypothesis ctor_py : forall k v, int_fits k v -> ctor (TPy k) (py_dtype k v) v = Ok v.

  Lemma map_cast_id d l : map (cast d d) l = l.
  Proof. induction l as [|v l IH]; cbn; [auto|]. rewrite cast_id, IH. auto. Qed.
  Lemma nd_eta a : {| sh := sh a; dt := dt a; dat := dat a |} = a.
  Proof. destruct a; auto. Qed.
  Lemma save_np a : np_storable (dt a) -> np_save a = Ok (Rec a) /\ forall f, np_load (Rec a :: f) = Ok (a, f).
  Proof.
    intros H. unfold np_save, np_load. destruct a as [s d v]; cbn [sh dt dat] in *.
    destruct d; try (exfalso; apply H; cbn; tauto); split; auto.
  Qed.
  Lemma canon_ok d : (x64 = false -> ~ In d [DI64; DU64; DF64; DC128]) -> canon x64 d = d.
  Proof. intros H. unfold canon. destruct x64; [reflexivity|]. destruct d; try reflexivity; exfalso; apply (H eq_refl); cbn; tauto. Qed.
  Lemma save_jax a : jax_storable x64 (dt a) ->
    exists r, np_save a = Ok r /\ forall f, jnp_load x64 cast (r :: f) = Ok (JArr a, f).
  Proof.
    intros [[H|H] HC]; apply canon_ok in HC.
    - destruct (save_np a H) as [H1 H2]. exists (Rec a). split; [auto|]. intros f. unfold jnp_load. rewrite H2. cbn [bind fst snd].
      assert (HV : view_bf16 a = a) by (unfold view_bf16; destruct (dt a); auto; exfalso; apply H; cbn; tauto). rewrite HV.
      destruct a as [s d v]; cbn [sh dt dat] in *. destruct d; try (exfalso; apply H; cbn; tauto); rewrite HC, map_cast_id; auto.
    - destruct a as [s d v]; cbn [dt] in H. subst d. eexists. split; [reflexivity|]. intros f. unfold jnp_load. cbn [np_load bind fst snd on_disk dt view_bf16 sh dat].
      cbn [dt] in HC. rewrite HC, map_cast_id. auto.
  Qed.
  Lemma expected_trips t l o : expected x64 t l o -> trips default_ser (default_des x64 cast ctor) t l o.
  Proof.
    intros H. destruct H as [a b Hs Hd Hj|a Hj|a b Hs Hd Hn|d v w Hd|k v w Hf|t l Ht Hl HL].
    - destruct (save_jax a Hj) as (r & H1 & H2). split.
      + exists [r]. cbn [default_ser default_des]. rewrite H1. split; [auto|]. intros rest. cbn [app]. rewrite H2. auto.
      + unfold assert_same. cbn. rewrite Hs, Hd. destruct (list_eq_dec _ _ _); [|congruence]. destruct (dty_eq_dec _ _); [auto|congruence].
    - destruct (save_jax a Hj) as (r & H1 & H2). split.
      + exists [r]. cbn [default_ser default_des]. rewrite H1. split; [auto|]. intros rest. cbn [app]. rewrite H2. auto.
      + unfold assert_same. cbn. destruct (list_eq_dec _ _ _); [|congruence]. destruct (dty_eq_dec _ _); [auto|congruence].
    - destruct (save_np a Hn) as (H1 & H2). split.
      + exists [Rec a]. cbn [default_ser default_des]. rewrite H1. split; [auto|]. intros rest. cbn [app]. rewrite H2. auto.
      + unfold assert_same. cbn. rewrite Hs, Hd. destruct (list_eq_dec _ _ _); [|congruence]. destruct (dty_eq_dec _ _); [auto|congruence].
    - split.
      + destruct Hd as [Hd| ->].
        * destruct (save_np {| sh := []; dt := d; dat := [v] |} Hd) as (H1 & H2). exists [Rec {| sh := []; dt := d; dat := [v] |}].
          cbn [default_ser default_des]. rewrite H1. split; [auto|]. intros rest. cbn [app]. rewrite H2. cbn [bind fst snd dt].
          assert (E : match d, d with DBF16, DV2 => Ok (view_bf16 {| sh := []; dt := d; dat := [v] |}) | DBF16, _ => Err ValueError | _, _ => Ok {| sh := []; dt := d; dat := [v] |} end
            = Ok {| sh := []; dt := d; dat := [v] |}) by (destruct d; auto; exfalso; apply Hd; cbn; tauto).
          rewrite E. cbn [bind item dat dt]. rewrite ctor_np by auto. auto.
        * eexists. split; [reflexivity|]. intros rest. cbn [app default_des np_load bind dt on_disk fst snd view_bf16 item dat sh]. rewrite ctor_np by auto. auto.
      + unfold assert_same. cbn [type_of is_nd]. destruct (ty_eq_dec _ _); [auto|congruence].
    - split.
      + assert (HN : np_storable (py_dtype k v)).
        { unfold np_storable, py_dtype. destruct k; try (cbn; intuition congruence). cbn [int_fits] in Hf.
          destruct ((- 2 ^ 63 <=? v) && (v <? 2 ^ 63))%Z eqn:E1; [cbn; intuition congruence|]. destruct ((0 <=? v) && (v <? 2 ^ 64))%Z eqn:E2; [cbn; intuition congruence|]. lia. }
        destruct (save_np {| sh := []; dt := py_dtype k v; dat := [v] |} HN) as (H1 & H2). exists [Rec {| sh := []; dt := py_dtype k v; dat := [v] |}].
        cbn [default_ser default_des]. rewrite H1. split; [auto|]. intros rest. cbn [app]. rewrite H2. cbn [bind fst snd dt item dat]. rewrite ctor_py by auto. auto.
      + unfold assert_same. cbn [type_of is_nd]. destruct (ty_eq_dec _ _); [auto|congruence].
    - assert (HA : assert_same l l = Ok TNone).
      { unfold assert_same. assert (HT : match type_of l with TySDS => TyJ | t => t end = type_of l) by (destruct l as [[]| |]; auto; discriminate).
        rewrite HT. destruct (ty_eq_dec _ _); [|congruence]. destruct l as [[]| |]; auto; discriminate. }
      split; [|auto]. exists []. split; [destruct t as [[]| |]; auto; discriminate|]. intros rest. destruct l as [[]| |]; auto; discriminate.
  Qed.
End Default.

(** ** Checks *)
Lemma assert_same_ok o l r : assert_same o l = Ok r -> same_type o l /\ (is_nd o = true -> shape_of o = shape_of l).
Proof.
  unfold assert_same, same_type. destruct (ty_eq_dec _ _) as [E|]; [|discriminate]. intros H. split; [auto|]. intros Hn. rewrite Hn in H.
  destruct (shape_of o) as [[s d]|]; [|discriminate]. destruct (shape_of l) as [[s' d']|]; [|discriminate].
  destruct (list_eq_dec _ _ _) as [->|]; [|discriminate]. destruct (dty_eq_dec _ _) as [->|]; [auto|discriminate].
Qed.
Lemma assert_agrees isl o : forall l r, tmap2 isl assert_same o l = Ok r -> agrees isl o l.
Proof.
  induction o as [a| |k cs IH] using tree_ind'; intros l r H; cbn [tmap2] in H.
  - assert (H' : assert_same (Leaf a) l = Ok r) by (destruct (isl (Leaf a)); auto). apply assert_same_ok in H' as [H1 H2].
    apply A_leaf; auto. unfold leafy. apply orb_true_r.
  - destruct (isl TNone) eqn:E; [apply assert_same_ok in H as [H1 H2]; apply A_leaf; auto; unfold leafy; rewrite E; auto|]. destruct l; try discriminate. apply A_none.
  - destruct (isl (Node k cs)) eqn:E; [apply assert_same_ok in H as [H1 H2]; apply A_leaf; auto; unfold leafy; rewrite E; auto|].
    destruct l as [| |k' ls]; try discriminate. destruct (Nat.eqb_spec k k') as [<-|]; [|discriminate]. apply A_node.
    destruct (zipM (tmap2 isl assert_same) cs ls) as [rs|] eqn:EZ; [|discriminate]. clear H E. revert ls rs EZ. induction IH as [|c cs Hc IH IHc]; intros [|l ls] rs EZ; cbn [zipM] in EZ; try discriminate; auto.
    apply bind_ok in EZ as (x & Hx & EZ). apply bind_ok in EZ as (xs & Hxs & _). constructor; eauto.
Qed.

Lemma omap_structure {S} isl (f : S -> obj -> res (obj * S)) t : forall p s o s', omap isl f p t s = POk (o, s') -> same_structure isl t o.
Proof.
  induction t as [a| |k cs IH] using tree_ind'; intros p s o s' H; cbn [omap] in H.
  - apply T_leaf. unfold leafy. apply orb_true_r.
  - destruct (isl TNone) eqn:E; [apply T_leaf; unfold leafy; rewrite E; auto|]. injection H as <- _. apply T_none.
  - destruct (isl (Node k cs)) eqn:E; [apply T_leaf; unfold leafy; rewrite E; auto|].
    destruct (okids _ p 0 cs s) as [[os s1]|q|e] eqn:EK; try discriminate. injection H as <- _. apply T_node. clear E.
    generalize 0 as i. intros i0. assert (exists i, okids (omap isl f) p i cs s = POk (os, s1)) as [i EK'] by eauto. clear EK.
    revert i s os EK'. induction IH as [|c cs Hc IH IHc]; intros i s os EK; cbn [okids] in EK; [injection EK as <- _; constructor|].
    destruct (omap isl f (p ++ [i]) c s) as [[c' s2]|q|e] eqn:Ec; try discriminate.
    destruct (okids _ p (1 + i) cs s2) as [[os' s3]|q|e] eqn:Ek; try discriminate. injection EK as <- ->. constructor; eauto.
Qed.

(** ** Error paths *)
Lemma omap_path {S} isl (f : S -> obj -> res (obj * S)) t : forall p s, 
  (forall q, omap isl f p t s = PPath q -> exists q' x s' e, q = p ++ q' /\ sub t q' = Some x /\ leafy isl x = true /\ f s' x = Err e) /\
  (forall e, omap isl f p t s <> PRaise e).
Proof.
  assert (HL : forall p t s, leafy isl t = true ->
    (forall q, at_leaf f p t s = PPath q -> exists q' x s' e, q = p ++ q' /\ sub t q' = Some x /\ leafy isl x = true /\ f s' x = Err e) /\
    (forall e, at_leaf f p t s <> PRaise e)).
  { intros p x s Hx. unfold at_leaf. destruct (f s x) eqn:E; split; try discriminate. intros q Hq. injection Hq as <-. exists [], x, s, e. rewrite app_nil_r.
    split; [auto|]. split; [destruct x; auto|]. auto. }
  induction t as [a| |k cs IH] using tree_ind'; intros p s.
  - rewrite leafy_omap by (unfold leafy; apply orb_true_r). apply HL. unfold leafy; apply orb_true_r.
  - cbn [omap]. destruct (isl TNone) eqn:E; [apply HL; unfold leafy; rewrite E; auto|]. split; discriminate.
  - cbn [omap]. destruct (isl (Node k cs)) eqn:E; [apply HL; unfold leafy; rewrite E; auto|]. clear E.
    assert (HK : (forall q i, okids (omap isl f) p i cs s = PPath q -> exists j q' c x s' e, q = p ++ (i + j) :: q' /\ nth_error cs j = Some c /\ sub c q' = Some x /\ leafy isl x = true /\ f s' x = Err e)
                 /\ (forall e i, okids (omap isl f) p i cs s <> PRaise e)).
    { revert s. induction IH as [|c cs Hc IH IHc]; intros s; cbn [okids]; [split; discriminate|]. split.
      - intros q i H. destruct (Hc (p ++ [i]) s) as [C1 C2]. destruct (omap isl f (p ++ [i]) c s) as [[c' s2]|q1|e] eqn:Ec; try discriminate.
        + destruct (IHc s2) as [I1 _]. destruct (okids _ p (1 + i) cs s2) as [[os' s3]|q2|e] eqn:Ek; try discriminate. injection H as ->.
          destruct (I1 q (1 + i) Ek) as (j & q' & d & x & s' & e & -> & Hd & Hx). exists (1 + j), q', d, x, s', e. split; [f_equal; f_equal; lia|]. auto.
        + injection H as ->. destruct (C1 q eq_refl) as (q' & x & s' & e & -> & Hx). exists 0, q', c, x, s', e. rewrite <- app_assoc. cbn [app]. split; [f_equal; f_equal; lia|]. auto.
      - intros e i. destruct (Hc (p ++ [i]) s) as [C1 C2]. destruct (omap isl f (p ++ [i]) c s) as [[c' s2]|q1|e1] eqn:Ec; try discriminate.
        + destruct (IHc s2) as [_ I2]. specialize (I2 e (1 + i)). destruct (okids _ p (1 + i) cs s2) as [[os' s3]|q2|e2]; congruence.
        + congruence. }
    destruct HK as [K1 K2]. split.
    + intros q H. destruct (okids _ p 0 cs s) as [[os s1]|q1|e] eqn:EK; try discriminate. injection H as ->.
      destruct (K1 q 0 EK) as (j & q' & c & x & s' & e & -> & Hc & Hx). exists (j :: q'), x, s', e. split; [auto|]. cbn [sub]. rewrite Hc. auto.
    + intros e. specialize (K2 e 0). destruct (okids _ p 0 cs s) as [[os s1]|q1|e1]; congruence.
Qed.
