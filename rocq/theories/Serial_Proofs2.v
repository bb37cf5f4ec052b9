(** Serialisation with trees of specifications. *)
From Verif Require Export Serial_Proofs.

Lemma same_assert o l : same_type o l -> (is_nd o = true -> shape_of o = shape_of l) -> assert_same o l = Ok TNone.
Proof.
  unfold assert_same, same_type. intros HT HS. destruct (ty_eq_dec _ _); [|contradiction]. destruct (is_nd o) eqn:En; [|auto].
  rewrite <- (HS eq_refl). destruct o as [x| |]; try discriminate. destruct x; try discriminate; cbn [shape_of];
    (destruct (list_eq_dec _ _ _); [|contradiction]); (destruct (dty_eq_dec _ _); [auto|contradiction]).
Qed.
Lemma restores_trips h g t l o : restores h g t l o -> trips h g t l o.
Proof. intros (H & H1 & H2). split; [auto|]. apply same_assert; auto. Qed.

Definition ser_step (isl : obj -> bool) (h : ser) (x : obj) (s : file) := omap isl (put h) [] x s.
Definition des_step (isl : obj -> bool) (h : des) (x : obj) (s : file) := omap isl h [] x s.
Fixpoint prefixes {F} (ts : list (tree F)) (xs : list obj) : bool :=
  match ts, xs with [], [] => true | a :: l', b :: r' => is_prefix a b && prefixes l' r' | _, _ => false end.
Lemma is_prefix_node {F} k k' (ts : list (tree F)) xs : is_prefix (Node k ts) (Node k' xs) = (Nat.eqb k k' && prefixes ts xs)%bool.
Proof. cbn [is_prefix]. f_equal. revert xs. induction ts as [|t ts IH]; intros [|x xs]; auto; cbn [prefixes]; rewrite <- IH; auto. Qed.

Lemma specs_trip_ok isl hs gs t l o : specs_trip isl hs gs t l o ->
  is_prefix hs t = true /\ is_prefix gs l = true /\ is_ok (tmap2 isl assert_same o l) = true /\
  exists rs, (forall p s, exists t', omap2 (ser_step isl) p hs t s = POk (t', s ++ rs)) /\
             (forall p rest, omap2 (des_step isl) p gs l (rs ++ rest) = POk (o, rest)).
Proof.
  intros H. pattern hs, gs, t, l, o, H. apply (specs_mut isl) with
    (P0 := fun hs gs ts ls os _ => prefixes hs ts = true /\ prefixes gs ls = true /\ is_ok (zipM (tmap2 isl assert_same) os ls) = true /\
       exists rs, (forall p i s, exists ts', kids2 (omap2 (ser_step isl)) p i hs ts s = POk (ts', s ++ rs)) /\
             (forall p i rest, kids2 (omap2 (des_step isl)) p i gs ls (rs ++ rest) = POk (os, rest))); clear hs gs t l o H.
  - intros h g t l o HS. apply (side_impl isl _ (trips h g) (restores_trips h g)) in HS. split; [auto|]. split; [auto|]. split; [apply (trip_assert isl h g _ _ _ HS)|].
    destruct (omap_trip isl h g _ _ _ HS) as (rs & H1 & H2). exists rs. cbn [omap2]. unfold ser_step, des_step. split.
    + intros p s. destruct (H1 [] s) as [t' E]. rewrite E. eauto.
    + intros p rest. rewrite H2. auto.
  - intros HN. do 2 (split; [auto|]). split; [cbn [tmap2]; rewrite HN; auto|]. exists []. split; [intros; cbn; rewrite app_nil_r; eauto|auto].
  - intros k hs gs ts ls os Ho _ (P1 & P2 & P3 & rs & H1 & H2). rewrite !is_prefix_node, Nat.eqb_refl, P1, P2. do 2 (split; [auto|]). split.
    + cbn [tmap2]. rewrite Ho, Nat.eqb_refl. destruct (zipM (tmap2 isl assert_same) os ls); auto.
    + exists rs. cbn [omap2]. split.
      * intros p s. destruct (H1 p 0 s) as [ts' E]. rewrite E. eauto.
      * intros p rest. rewrite H2. auto.
  - do 3 (split; [auto|]). exists []. split; [intros; cbn; rewrite app_nil_r; eauto|auto].
  - intros h g t l o hs gs ts ls os _ (P1 & P2 & P3 & r1 & A1 & A2) _ (Q1 & Q2 & Q3 & r2 & B1 & B2). cbn [prefixes zipM kids2]. rewrite P1, P2, Q1, Q2.
    do 2 (split; [auto|]). split.
    + destruct (tmap2 isl assert_same o l); [|discriminate]. cbn [bind]. destruct (zipM (tmap2 isl assert_same) os ls); [auto|discriminate].
    + exists (r1 ++ r2). split.
      * intros p i s. destruct (A1 (p ++ [i]) s) as [t' E]. rewrite E. destruct (B1 p (1 + i) (s ++ r1)) as [ts' E']. rewrite E', app_assoc. eauto.
      * intros p i rest. rewrite <- app_assoc, A2, B2. auto.
Qed.

Lemma roundtrip_specs isl hs gs t l o : specs_trip isl hs gs t l o ->
  exists f, serialise isl hs t = POk f /\ forall rest, deserialise isl gs l (f ++ rest) = POk (o, rest).
Proof.
  intros H. apply specs_trip_ok in H as (P1 & P2 & P3 & rs & H1 & H2). exists rs. split.
  - unfold serialise. rewrite P1. cbn [negb]. destruct (H1 [] []) as [t' E]. change (match omap2 (ser_step isl) [] hs t [] with POk (_, s) => POk s | PPath q => PPath q | PRaise e => PRaise e end = POk rs). rewrite E. auto.
  - intros rest. unfold deserialise. rewrite P2. cbn [negb]. specialize (H2 [] rest). change (match omap2 (des_step isl) [] gs l (rs ++ rest) with POk (out, f') => match tmap2 isl assert_same out l with Ok _ => POk (out, f') | Err e => PRaise e end | PPath q => PPath q | PRaise e => PRaise e end = POk (o, rest)). rewrite H2.
    destruct (tmap2 isl assert_same o l); [auto|discriminate].
Qed.

(** ** Structure and error paths with trees of specifications *)
Lemma omap2_path {F} isl (g : F -> file -> obj -> res (obj * file)) ts : forall p x s q,
  omap2 (fun h y s => omap isl (g h) [] y s) p ts x s = PPath q ->
  exists p1 p2 y h s' e, q = p ++ p1 ++ p2 /\ sub ts p1 = Some (Leaf h) /\ sub x (p1 ++ p2) = Some y /\ leafy isl y = true /\ g h s' y = Err e.
Proof.
  induction ts as [h| |k cs IH] using tree_ind'; intros p x s q H.
  - cbn [omap2] in H. destruct (omap_path isl (g h) x [] s) as [P1 P2]. destruct (omap isl (g h) [] x s) as [r|q1|e] eqn:E; try discriminate; [|destruct (P2 e eq_refl)].
    injection H as <-. destruct (P1 q1 eq_refl) as (q' & y & s' & e & -> & Hy & HL & He). exists [], q', y, h, s', e. auto.
  - cbn in H. discriminate.
  - destruct x as [a| |k' xs]; [discriminate|discriminate|]. cbn [omap2] in H.
    match type of H with context [kids2 ?go p 0 cs xs s] => set (G := go) in *; assert (HK : forall i q, kids2 G p i cs xs s = PPath q ->
      exists j p1 p2 c d y h s' e, q = p ++ (i + j) :: p1 ++ p2 /\ nth_error cs j = Some d /\ sub d p1 = Some (Leaf h) /\ nth_error xs j = Some c /\ sub c (p1 ++ p2) = Some y /\ leafy isl y = true /\ g h s' y = Err e) end.
    { clear H q. revert xs s. induction IH as [|c cs Hc IH IHc]; intros xs s i q HQ; [discriminate|]. destruct xs as [|x xs]; [discriminate|]. cbn [kids2] in HQ.
      destruct (G (p ++ [i]) c x s) as [[x' s2]|q1|e] eqn:Ec; try discriminate.
      - destruct (kids2 G p (1 + i) cs xs s2) as [[os s3]|q2|e] eqn:Ek; try discriminate. injection HQ as ->.
        destruct (IHc xs s2 (1 + i) q Ek) as (j & p1 & p2 & d & d' & y & h & s' & e & -> & Hd & Hy). exists (1 + j), p1, p2, d, d', y, h, s', e. split; [f_equal; f_equal; lia|]. auto.
      - injection HQ as ->. destruct (Hc (p ++ [i]) x s q Ec) as (p1 & p2 & y & h & s' & e & -> & Hy). exists 0, p1, p2, x, c, y, h, s', e. rewrite <- (app_assoc p). cbn [app nth_error]. split; [f_equal; f_equal; lia|]. do 2 (split; [tauto|]). tauto. }
    destruct (kids2 G p 0 cs xs s) as [[os s1]|q1|e] eqn:EK; try discriminate. injection H as ->.
    destruct (HK 0 q EK) as (j & p1 & p2 & c & d & y & h & s' & e & -> & Hd & Hh & Hc & Hy). exists (j :: p1), p2, y, h, s', e. split; [auto|]. cbn [sub app]. rewrite Hc, Hd. auto.
Qed.
(** The structure of the result is that of the second tree, for any specifications, provided the first tree is a prefix. *)
Lemma omap2_structure {F} isl (g : F -> file -> obj -> res (obj * file)) ts : forall p x s o s', is_prefix ts x = true ->
  omap2 (fun h y s => omap isl (g h) [] y s) p ts x s = POk (o, s') -> same_structure isl x o.
Proof.
  induction ts as [h| |k cs IH] using tree_ind'; intros p x s o s' HP H.
  - cbn [omap2] in H. destruct (omap isl (g h) [] x s) as [r|q1|e] eqn:E; try discriminate. injection H as ->. eapply omap_structure. eauto.
  - destruct x; try discriminate. cbn in H. injection H as <- _. apply T_none.
  - destruct x as [a| |k' xs]; [discriminate|discriminate|]. rewrite is_prefix_node in HP. apply andb_true_iff in HP as [_ HP]. cbn [omap2] in H.
    match type of H with context [kids2 ?go p 0 cs xs s] => set (G := go) in *; assert (HK : forall i os s1, kids2 G p i cs xs s = POk (os, s1) -> Forall2 (same_structure isl) xs os) end.
    { clear H. revert xs s HP. induction IH as [|c cs Hc IH IHc]; intros [|x xs] s HP i os s1 HQ; cbn [prefixes] in HP; try discriminate; cbn [kids2] in HQ; [injection HQ as <- _; constructor|].
      apply andb_true_iff in HP as [HP1 HP2]. destruct (G (p ++ [i]) c x s) as [[x' s2]|q1|e] eqn:Ec; try discriminate.
      destruct (kids2 G p (1 + i) cs xs s2) as [[os' s3]|q2|e] eqn:Ek; try discriminate. injection HQ as <- ->. constructor; eauto. }
    destruct (kids2 G p 0 cs xs s) as [[os s1]|q1|e] eqn:EK; try discriminate. injection H as <- _. apply T_node. eauto.
Qed.
Lemma omap2_noraise {F S} (g : F -> obj -> S -> pres (obj * S)) ts : forall p x s e, omap2 g p ts x s <> PRaise e.
Proof.
  induction ts as [h| |k cs IH] using tree_ind'; intros p x s e H.
  - cbn [omap2] in H. destruct (g h x s); discriminate.
  - cbn in H. discriminate.
  - destruct x as [a| |k' xs]; [discriminate|discriminate|]. cbn [omap2] in H.
    assert (HK : forall i e, kids2 (omap2 g) p i cs xs s <> PRaise e).
    { clear H e. revert xs s. induction IH as [|c cs Hc IH IHc]; intros xs s i e HQ; [discriminate|]. destruct xs as [|x xs]; [discriminate|]. cbn [kids2] in HQ.
      destruct (omap2 g (p ++ [i]) c x s) as [[x' s2]|q1|e'] eqn:Ec; try discriminate; [|apply (Hc _ _ _ _ Ec)].
      destruct (kids2 (omap2 g) p (1 + i) cs xs s2) as [[os s3]|q2|e'] eqn:Ek; try discriminate. apply (IHc _ _ _ _ Ek). }
    destruct (kids2 (omap2 g) p 0 cs xs s) as [[os s1]|q1|e'] eqn:EK; try discriminate. apply (HK _ _ EK).
Qed.
