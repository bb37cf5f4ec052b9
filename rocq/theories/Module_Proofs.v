(** Proofs about [Module] instances. *)
From Verif Require Export Module_Model.

Lemma mem_In n l : mem n l = true <-> In n l.
Proof.
  unfold mem. rewrite existsb_exists. split.
  - intros (x & H & E). apply Nat.eqb_eq in E. subst; auto.
  - intros H. exists n. split; auto. apply Nat.eqb_refl.
Qed.

Section AssocFacts.
  Context {V : Type}.
  Lemma aget_aset (d : attrs V) n v m : aget (aset d n v) m = if Nat.eqb n m then Some v else aget d m.
  Proof.
    induction d as [|[k w] d IH]; cbn; auto. destruct (Nat.eqb_spec k n).
    - subst. cbn. destruct (Nat.eqb_spec n m); auto.
    - cbn. rewrite IH. destruct (Nat.eqb_spec k m), (Nat.eqb_spec n m); subst; congruence.
  Qed.
  Lemma aget_In (d : attrs V) n : aget d n <> None <-> In n (map fst d).
  Proof.
    induction d as [|[k w] d IH]; cbn; [tauto|]. destruct (Nat.eqb_spec k n); [subst; intuition congruence|].
    rewrite IH. intuition.
  Qed.
  Lemma aget_None (d : attrs V) n : aget d n = None <-> ~ In n (map fst d).
  Proof. rewrite <- aget_In. destruct (aget d n); intuition congruence. Qed.
  Lemma aget_nth (d : attrs V) i n v : NoDup (map fst d) -> nth_error d i = Some (n, v) -> aget d n = Some v.
  Proof.
    revert i. induction d as [|[k w] d IH]; intros [|i] HN H; cbn in *; try discriminate.
    - inv H. rewrite Nat.eqb_refl. auto.
    - inversion HN as [|x l HX HN']; subst. destruct (Nat.eqb_spec k n); [|eauto].
      subst. exfalso. apply HX. apply nth_error_In in H. apply in_map_iff. exists (n, v); auto.
  Qed.
  Lemma aset_names (d : attrs V) n v m : In m (map fst (aset d n v)) <-> In m (map fst d) \/ m = n.
  Proof. rewrite <- !aget_In, aget_aset. destruct (Nat.eqb_spec n m); intuition congruence. Qed.
  Lemma aget_combine_map {W} (d : list (name * W)) (vs : list V) n :
    length vs = length d -> aget (List.combine (map fst d) vs) n = None <-> aget d n = None.
  Proof.
    revert vs. induction d as [|[k w] d IH]; intros [|v vs] H; cbn in *; try discriminate; [tauto|].
    destruct (Nat.eqb k n); [split; discriminate|]. apply IH. lia.
  Qed.
End AssocFacts.

Lemma map_fst_combine {X Y} (l : list X) (r : list Y) : length r = length l -> map fst (List.combine l r) = l.
Proof. revert r; induction l as [|x l IH]; intros [|y r] H; cbn in *; try discriminate; auto. f_equal; apply IH; lia. Qed.
Lemma map_snd_combine {X Y} (l : list X) (r : list Y) : length r = length l -> map snd (List.combine l r) = r.
Proof. revert r; induction l as [|x l IH]; intros [|y r] H; cbn in *; try discriminate; auto. f_equal; apply IH; lia. Qed.
Lemma combine_split {X Y} (l : list (X * Y)) : List.combine (map fst l) (map snd l) = l.
Proof. induction l as [|[x y] l IH]; cbn; congruence. Qed.

Section Facts.
  Context {V : Type} (fields : list (field V)) (lookup : name -> cattr V).
  Notation getattr := (getattr lookup).
  Notation obj_setattr := (obj_setattr lookup).
  Notation obj_setattrs := (obj_setattrs lookup).
  Notation names := (field_names fields).

  Definition is_prop (n : name) : Prop := exists g, lookup n = CProp g.
  Lemma obj_setattr_ok d n v : ~ is_prop n -> obj_setattr d n v = Ok (aset d n v).
  Proof. unfold obj_setattr, is_prop. intros H. destruct (lookup n); auto. destruct H; eauto. Qed.
  Lemma obj_setattr_inv d n v d' : obj_setattr d n v = Ok d' -> ~ is_prop n /\ d' = aset d n v.
  Proof.
    unfold obj_setattr, is_prop. destruct (lookup n) eqn:E; intros H; inv H; split; auto; intros [g' Hg']; congruence.
  Qed.

  Lemma obj_setattrs_ok l : forall d, (forall n, In n (map fst l) -> ~ is_prop n) -> NoDup (map fst l) ->
    exists d', obj_setattrs d l = Ok d' /\
      forall n, aget d' n = match aget l n with Some v => Some v | None => aget d n end.
  Proof.
    induction l as [|[n v] l IH]; intros d HP HN; cbn [Module_Model.obj_setattrs].
    - exists d. split; auto.
    - cbn in HP. inversion HN as [|x xs HX HN']; subst. rewrite obj_setattr_ok by (apply HP; left; auto). cbn [bind].
      destruct (IH (aset d n v)) as (d' & Hd' & Hg); [intros m Hm; apply HP; right; auto|auto|].
      exists d'. split; auto. intros m. rewrite Hg, aget_aset. cbn. destruct (Nat.eqb_spec n m); auto.
      subst. assert (aget l m = None) as -> by (apply aget_None; auto). auto.
  Qed.

  (** ** Flattening *)
  Definition dynamic (n : name) : Prop := exists f, In f fields /\ f_name f = n /\ f_static f = false.
  Definition static (n : name) : Prop := exists f, In f fields /\ f_name f = n /\ f_static f = true.

  Lemma split_spec (fs : list (field V)) (d : attrs V) dyn st : split_fields fs d = (dyn, st) -> NoDup (map f_name fs) ->
    (forall n, aget dyn n = if existsb (fun f => Nat.eqb (f_name f) n && negb (f_static f)) fs then aget d n else None) /\
    (forall n, aget st n = if existsb (fun f => Nat.eqb (f_name f) n && f_static f) fs then aget d n else None) /\
    NoDup (map fst dyn) /\ NoDup (map fst st) /\
    (forall n, In n (map fst dyn) -> In n (map f_name fs)) /\ (forall n, In n (map fst st) -> In n (map f_name fs)).
  Proof.
    revert dyn st. induction fs as [|f fs IH]; intros dyn st H HN; cbn in H.
    - inv H. cbn. repeat split; try constructor; auto.
    - destruct (split_fields fs d) as [dyn0 st0] eqn:E. inversion HN as [|x xs HX HN']; subst.
      destruct (IH dyn0 st0 eq_refl HN') as (I1 & I2 & I3 & I4 & I5 & I6).
      assert (Z1 : existsb (fun g => Nat.eqb (f_name g) (f_name f) && negb (f_static g)) fs = false).
      { match goal with |- ?x = false => destruct x eqn:Q end; auto. apply existsb_exists in Q as (g & Hg & Q). apply andb_prop in Q as [Q _].
        apply Nat.eqb_eq in Q. exfalso. apply HX. apply in_map_iff. exists g; auto. }
      assert (Z2 : existsb (fun g => Nat.eqb (f_name g) (f_name f) && f_static g) fs = false).
      { match goal with |- ?x = false => destruct x eqn:Q end; auto. apply existsb_exists in Q as (g & Hg & Q). apply andb_prop in Q as [Q _].
        apply Nat.eqb_eq in Q. exfalso. apply HX. apply in_map_iff. exists g; auto. }
      destruct (aget d (f_name f)) as [v|] eqn:Ev.
      + destruct (f_static f) eqn:Es; inv H.
        * split; [|split; [|split; [|split; [|split]]]].
          -- intros n. cbn. rewrite Es, andb_false_r. cbn. auto.
          -- intros n. cbn. rewrite Es, andb_true_r. destruct (Nat.eqb_spec (f_name f) n); cbn; [subst; auto|auto].
          -- auto.
          -- cbn. constructor; auto.
          -- intros n Hn. right. auto.
          -- intros n [<-|Hn]; [left; auto|right; auto].
        * split; [|split; [|split; [|split; [|split]]]].
          -- intros n. cbn. rewrite Es, andb_true_r. destruct (Nat.eqb_spec (f_name f) n); cbn; [subst; auto|auto].
          -- intros n. cbn. rewrite Es, andb_false_r. cbn. auto.
          -- cbn. constructor; auto.
          -- auto.
          -- intros n [<-|Hn]; [left; auto|right; auto].
          -- intros n Hn. right. auto.
      + inv H. split; [|split; [|split; [|split; [|split]]]]; auto.
        * intros n. cbn. destruct (Nat.eqb_spec (f_name f) n); [subst n|cbn; auto].
          rewrite I1, Z1. cbn. destruct (f_static f); cbn; [destruct (existsb _ fs); auto|congruence].
        * intros n. cbn. destruct (Nat.eqb_spec (f_name f) n); [subst n|cbn; auto].
          rewrite I2, Z2. cbn. destruct (f_static f); cbn; [congruence|destruct (existsb _ fs); auto].
        * intros n Hn. right. auto.
        * intros n Hn. right. auto.
  Qed.

  Variable worder : list name.
  Notation flatten := (flatten fields lookup worder).
  Notation unflatten := (unflatten lookup).

  Definition class_ok : Prop :=
    NoDup names /\ NoDup worder /\ (forall w, In w worder -> ~ In w names) /\ (forall w, In w worder -> ~ is_prop w).
  (** Entries of [__dict__] are never hidden by a property: they got there by [object.__setattr__]. *)
  Definition inst_ok (d : attrs V) : Prop := forall n, In n (map fst d) -> ~ is_prop n.

  Lemma wrappers_spec d ws : (forall w, In w ws -> ~ is_prop w) -> NoDup ws ->
    exists l, wrappers lookup ws d = Ok l /\ NoDup (map fst l) /\ (forall n, In n (map fst l) -> In n ws) /\
      forall w, In w ws -> getattr d w = match aget l w with Some v => Ok v | None => Err AttributeError end.
  Proof.
    induction ws as [|w ws IH]; intros HP HN; cbn [Module_Model.wrappers].
    - exists []. cbn. repeat split; try constructor; auto. tauto.
    - inversion HN as [|x xs HX HN']; subst.
      destruct IH as (l & Hl & L1 & L2 & L3); [intros v Hv; apply HP; right; auto|auto|].
      assert (HE : forall v, In v (w :: ws) -> (exists x, getattr d v = Ok x) \/ getattr d v = Err AttributeError).
      { intros v Hv. specialize (HP v Hv). unfold Module_Model.getattr, is_prop in *. destruct (lookup v).
        - destruct (aget d v); eauto.
        - destruct (aget d v); eauto.
        - exfalso. apply HP. eauto. }
      assert (HXl : ~ In w (map fst l)) by (intros HC; apply HX; auto).
      destruct (HE w (or_introl eq_refl)) as [[x Hx]|Hx]; rewrite Hx, Hl.
      + exists ((w, x) :: l). split; [auto|]. split; [cbn; constructor; auto|]. split.
        * intros n [<-|Hn]; [left; auto|right; auto].
        * intros v [<-|Hv]; cbn; [rewrite Nat.eqb_refl; auto|].
          destruct (Nat.eqb_spec w v); [subst; tauto|]. auto.
      + exists l. split; auto. split; auto. split; [intros n Hn; right; auto|].
        intros v [<-|Hv]; auto. assert (aget l w = None) as -> by (apply aget_None; auto). auto.
  Qed.

  (** What flattening returns. *)
  Definition flat_of (d : attrs V) (vs : list V) (a : aux V) : Prop :=
    let dyn := List.combine (dyn_names a) vs in
    let st := List.combine (static_names a) (static_values a) in
    let ws := List.combine (wrap_names a) (wrap_values a) in
    length vs = length (dyn_names a) /\ length (static_values a) = length (static_names a) /\
    length (wrap_values a) = length (wrap_names a) /\
    split_fields fields d = (dyn, st) /\ wrappers lookup worder d = Ok ws.
  Lemma flatten_iff d vs a : flatten d = Ok (vs, a) <-> flat_of d vs a.
  Proof.
    unfold Module_Model.flatten, flat_of. destruct (split_fields fields d) as [dyn st].
    destruct (wrappers lookup worder d) as [ws|e]; cbn [bind].
    - split.
      + intros H. inv H. cbn. rewrite !map_length, !combine_split. auto.
      + intros (L1 & L2 & L3 & H1 & H2). inv H1. inv H2. destruct a; cbn in *.
        rewrite !map_fst_combine, !map_snd_combine by auto. auto.
    - split; [discriminate|]. intros (_ & _ & _ & _ & H). discriminate.
  Qed.

  Lemma flatten_ok d : class_ok -> exists vs a, flatten d = Ok (vs, a).
  Proof.
    intros (_ & H2 & _ & H4). unfold Module_Model.flatten. destruct (split_fields fields d).
    destruct (wrappers_spec d worder) as (wl & -> & _); auto. cbn. eauto.
  Qed.

  Lemma existsb_dyn n : existsb (fun f => Nat.eqb (f_name f) n && negb (f_static f)) fields = true <-> dynamic n.
  Proof.
    rewrite existsb_exists. unfold dynamic. split.
    - intros (f & Hf & E). apply andb_prop in E as [E1 E2]. apply Nat.eqb_eq in E1. exists f. destruct (f_static f); auto; discriminate.
    - intros (f & Hf & <- & E). exists f. rewrite Nat.eqb_refl, E. auto.
  Qed.
  Lemma existsb_static n : existsb (fun f => Nat.eqb (f_name f) n && f_static f) fields = true <-> static n.
  Proof.
    rewrite existsb_exists. unfold static. split.
    - intros (f & Hf & E). apply andb_prop in E as [E1 E2]. apply Nat.eqb_eq in E1. exists f. auto.
    - intros (f & Hf & <- & E). exists f. rewrite Nat.eqb_refl, E. auto.
  Qed.
  Lemma field_cases n : In n names -> dynamic n \/ static n.
  Proof.
    unfold field_names. rewrite in_map_iff. intros (f & <- & Hf). unfold dynamic, static.
    destruct (f_static f) eqn:E; [right|left]; exists f; auto.
  Qed.
  Lemma dyn_not_static n : NoDup names -> dynamic n -> ~ static n.
  Proof.
    intros HN (f & Hf & Ef & Sf) (g & Hg & Eg & Sg).
    assert (f = g); [|congruence]. unfold field_names in HN. clear Sf Sg.
    induction fields as [|h fs IH]; [destruct Hf|]. cbn in HN. inversion HN as [|x xs HX HN']; subst.
    destruct Hf as [->|Hf], Hg as [->|Hg]; auto.
    - exfalso. apply HX. rewrite <- Eg. apply in_map; auto.
    - exfalso. apply HX. rewrite Eg. apply in_map; auto.
  Qed.

  (** [split_fields] only depends on the fields' entries. *)
  Lemma split_ext (fs : list (field V)) (d d' : attrs V) : (forall n, In n (map f_name fs) -> aget d' n = aget d n) -> split_fields fs d' = split_fields fs d.
  Proof.
    induction fs as [|f fs IH]; cbn; auto. intros H. rewrite IH by (intros; apply H; auto). rewrite H by auto. auto.
  Qed.
  Lemma split_replace (fs : list (field V)) (d d' : attrs V) dyn st vs : NoDup (map f_name fs) ->
    split_fields fs d = (dyn, st) -> length vs = length dyn ->
    (forall n, In n (map f_name fs) -> In n (map fst dyn) -> aget d' n = aget (List.combine (map fst dyn) vs) n) ->
    (forall n, In n (map f_name fs) -> ~ In n (map fst dyn) -> aget d' n = aget d n) ->
    split_fields fs d' = (List.combine (map fst dyn) vs, st).
  Proof.
    revert dyn st vs. induction fs as [|f fs IH]; intros dyn st vs HN H HL H1 H2; cbn in H |- *.
    - inv H. destruct vs; [auto|discriminate].
    - inversion HN as [|x xs HX HN']; subst.
      destruct (split_fields fs d) as [dyn0 st0] eqn:E.
      pose proof (split_spec fs d dyn0 st0 E HN') as (_ & _ & S3 & S4 & S5 & S6).
      destruct (aget d (f_name f)) as [v|] eqn:Ev; [destruct (f_static f) eqn:Es|]; inv H.
      + rewrite (IH dyn st0 vs); auto.
        * rewrite (H2 (f_name f)), Ev; [auto|left; auto|]. intros HC. apply HX. apply S5 in HC. auto.
        * intros n Hn Hd. apply H1; [right|]; auto.
        * intros n Hn Hd. apply H2; [right|]; auto.
      + destruct vs as [|w vs]; [discriminate|]. cbn in HL.
        rewrite (IH dyn0 st vs); auto.
        * rewrite (H1 (f_name f)); cbn; [|left; auto|left; auto]. rewrite Nat.eqb_refl. auto.
        * intros n Hn Hd. rewrite (H1 n); [|right; auto|right; auto]. cbn.
          destruct (Nat.eqb_spec (f_name f) n); auto. subst. tauto.
        * intros n Hn Hd. apply H2; [right; auto|]. intros [E'|E']; [subst; apply HX; auto|auto].
      + rewrite (IH dyn st vs); auto.
        * rewrite (H2 (f_name f)), Ev; [auto|left; auto|]. intros HC. apply HX. apply S5 in HC. auto.
        * intros n Hn Hd. apply H1; [right|]; auto.
        * intros n Hn Hd. apply H2; [right|]; auto.
  Qed.

  Lemma wrappers_ext ws d d' : (forall w, In w ws -> getattr d' w = getattr d w) -> wrappers lookup ws d' = wrappers lookup ws d.
  Proof.
    induction ws as [|w ws IH]; cbn [Module_Model.wrappers]; auto. intros H. rewrite IH by (intros; apply H; right; auto).
    rewrite H by (left; auto). auto.
  Qed.

  (** The result of unflattening with any values of the right number. *)
  Lemma unflatten_spec d vs a vs' : class_ok -> inst_ok d -> flatten d = Ok (vs, a) -> length vs' = length vs ->
    exists d', unflatten a vs' = Ok d' /\ flatten d' = Ok (vs', a) /\ inst_ok d' /\
      (forall i n v, nth_error (dyn_names a) i = Some n -> nth_error vs' i = Some v -> aget d' n = Some v) /\
      (forall n, In n names -> ~ In n (dyn_names a) -> aget d' n = aget d n) /\
      (forall w, In w worder -> getattr d' w = getattr d w) /\
      (forall n, ~ In n names -> ~ In n worder -> aget d' n = None) /\
      (forall w v, In w worder -> getattr d w = Ok v -> aget d' w = Some v).
  Proof.
    intros (C1 & C2 & C3 & C4) HI HF HL. apply flatten_iff in HF as (L1 & L2 & L3 & HS & HW).
    destruct (split_spec _ _ _ _ HS C1) as (S1 & S2 & S3 & S4 & S5 & S6).
    destruct (wrappers_spec d worder C4 C2) as (l & Hl & W1 & W2 & W3). rewrite HW in Hl. inv Hl.
    rewrite map_fst_combine in S3, S4, S5, S6, W1, W2 by auto.
    set (dyn' := List.combine (dyn_names a) vs') in *.
    assert (F1 : map fst dyn' = dyn_names a) by (apply map_fst_combine; congruence).
    set (st := List.combine (static_names a) (static_values a)) in *.
    assert (F2 : map fst st = static_names a) by (apply map_fst_combine; auto).
    set (ws := List.combine (wrap_names a) (wrap_values a)) in *.
    assert (F3 : map fst ws = wrap_names a) by (apply map_fst_combine; auto).
    assert (P1 : forall n, In n (dyn_names a) -> ~ is_prop n).
    { intros n Hn. apply HI. apply aget_In. specialize (S1 n).
      assert (aget (List.combine (dyn_names a) vs) n <> None) as HX by (apply aget_In; rewrite map_fst_combine; auto).
      destruct (existsb _ fields); congruence. }
    assert (P2 : forall n, In n (static_names a) -> ~ is_prop n).
    { intros n Hn. apply HI. apply aget_In. specialize (S2 n).
      assert (aget st n <> None) as HX by (apply aget_In; rewrite F2; auto).
      destruct (existsb _ fields); congruence. }
    destruct (obj_setattrs_ok dyn' []) as (d1 & E1 & G1); [rewrite F1; auto|rewrite F1; auto|].
    destruct (obj_setattrs_ok st d1) as (d2 & E2 & G2); [rewrite F2; auto|rewrite F2; auto|].
    destruct (obj_setattrs_ok ws d2) as (d3 & E3 & G3); [rewrite F3; auto|rewrite F3; auto|].
    exists d3. assert (HU : unflatten a vs' = Ok d3).
    { unfold Module_Model.unflatten. fold dyn' st ws. rewrite E1. cbn [bind]. rewrite E2. auto. }
    assert (HG : forall n, aget d3 n = match aget ws n with Some v => Some v | None =>
                  match aget st n with Some v => Some v | None => aget dyn' n end end).
    { intros n. rewrite G3, G2, G1. cbn. destruct (aget ws n); auto. destruct (aget st n); auto. destruct (aget dyn' n); auto. }
    assert (NW : forall n, In n names -> aget ws n = None).
    { intros n Hn. apply aget_None. rewrite F3. intros HC. apply (C3 n); auto. }
    assert (ND : forall n, static n -> aget dyn' n = None).
    { intros n Hn. apply aget_None. rewrite F1. intros HC.
      assert (aget (List.combine (dyn_names a) vs) n <> None) as HX by (apply aget_In; rewrite map_fst_combine; auto).
      specialize (S1 n). destruct (existsb _ fields) eqn:Q; [|congruence]. apply existsb_dyn in Q.
      eapply dyn_not_static; eauto. }
    assert (NS : forall n, dynamic n -> aget st n = None).
    { intros n Hn. rewrite S2. destruct (existsb _ fields) eqn:Q; auto. apply existsb_static in Q.
      exfalso. eapply dyn_not_static; eauto. }
    assert (INV : forall n, In n (dyn_names a) -> In n names /\ dynamic n).
    { intros n HC. assert (aget (List.combine (dyn_names a) vs) n <> None) as HX by (apply aget_In; rewrite map_fst_combine; auto).
      specialize (S1 n). destruct (existsb _ fields) eqn:Q; [|congruence]. apply existsb_dyn in Q. split; auto. }
    assert (HD : forall n, In n names -> ~ In n (dyn_names a) -> aget d3 n = aget d n).
    { intros n Hn Hnd. rewrite HG, NW by auto. destruct (field_cases n Hn) as [Hc|Hc].
      - rewrite NS by auto. assert (aget dyn' n = None) as -> by (apply aget_None; rewrite F1; auto).
        specialize (S1 n). apply existsb_dyn in Hc. rewrite Hc in S1. rewrite <- S1. symmetry. apply aget_None.
        rewrite map_fst_combine; auto.
      - rewrite ND by auto. specialize (S2 n). pose proof Hc as Hc'. apply existsb_static in Hc'. rewrite Hc' in S2. rewrite <- S2.
        destruct (aget st n); auto. }
    assert (HDyn : forall n, In n (dyn_names a) -> aget d3 n = aget dyn' n).
    { intros n Hn. destruct (INV n Hn). rewrite HG, NW, NS by auto. auto. }
    assert (HW3 : forall w, In w worder -> aget d3 w = aget ws w).
    { intros w Hw. rewrite HG. destruct (aget ws w); auto.
        assert (aget st w = None) as -> by (apply aget_None; rewrite F2; intros HC; apply (C3 w Hw); apply S6; auto).
        apply aget_None. rewrite F1. intros HC. apply (C3 w Hw). apply INV; auto. }
    assert (HWr : forall w, In w worder -> getattr d3 w = getattr d w).
    { intros w Hw. rewrite (W3 w Hw). pose proof (HW3 w Hw) as Hd3.
      specialize (C4 w Hw). specialize (W3 w Hw). unfold Module_Model.getattr, is_prop in *. rewrite Hd3.
      destruct (lookup w); [auto| |exfalso; eauto].
      destruct (aget ws w); auto. destruct (aget d w); discriminate. }
    split; auto. split.
    { apply flatten_iff. unfold flat_of. fold dyn' st ws. split; [congruence|]. split; auto. split; auto. split.
      - replace dyn' with (List.combine (map fst (List.combine (dyn_names a) vs)) vs') by (rewrite map_fst_combine; auto).
        apply (split_replace fields d); auto.
        + rewrite combine_length, L1, Nat.min_id. congruence.
        + intros n Hn Hd. rewrite map_fst_combine in Hd |- * by auto. apply HDyn; auto.
        + intros n Hn Hd. rewrite map_fst_combine in Hd by auto. apply HD; auto.
      - rewrite (wrappers_ext worder d) by auto. auto. }
    split.
    { intros n Hn. apply aget_In in Hn. rewrite HG in Hn.
      destruct (aget ws n) eqn:Qw. { apply C4. apply W2. rewrite <- F3. apply aget_In. congruence. }
      destruct (aget st n) eqn:Qs. { apply P2. rewrite <- F2. apply aget_In. congruence. }
      apply P1. rewrite <- F1. apply aget_In. auto. }
    split.
    { intros i n v Hi Hv. rewrite HDyn by (eapply nth_error_In; eauto). apply (aget_nth dyn' i); [rewrite F1; auto|].
      unfold dyn'. clear - Hi Hv. revert vs' i Hi Hv. induction (dyn_names a) as [|x l IH]; intros [|y vs] [|i] Hi Hv; cbn in *; try discriminate.
      - congruence.
      - apply IH; auto. }
    split; auto. split; auto. split.
    2:{ intros w v Hw Hv. rewrite (HW3 w Hw). rewrite (W3 w Hw) in Hv. destruct (aget ws w); congruence. }
    intros n Hn1 Hn2. rewrite HG.
    assert (aget ws n = None) as -> by (apply aget_None; rewrite F3; auto).
    assert (aget st n = None) as -> by (apply aget_None; rewrite F2; intros HC; apply Hn1; apply S6; auto).
    apply aget_None. rewrite F1. intros HC. apply Hn1. apply INV; auto.
  Qed.

  (** Which fields are dynamic children, and their values. *)
  Lemma dyn_names_spec d vs a : flatten d = Ok (vs, a) ->
    dyn_names a = List.filter (fun n => match aget d n with Some _ => true | None => false end)
                    (map f_name (List.filter (fun f => negb (f_static f)) fields)) /\
    Forall2 (fun n v => aget d n = Some v) (dyn_names a) vs /\
    static_names a = List.filter (fun n => match aget d n with Some _ => true | None => false end)
                    (map f_name (List.filter (fun f => f_static f) fields)) /\
    Forall2 (fun n v => aget d n = Some v) (static_names a) (static_values a).
  Proof.
    intros H. apply flatten_iff in H as (L1 & L2 & _ & HS & _).
    set (dyn := List.combine (dyn_names a) vs) in *. set (st := List.combine (static_names a) (static_values a)) in *.
    rewrite <- (map_fst_combine (dyn_names a) vs) by auto. fold dyn.
    rewrite <- (map_snd_combine (dyn_names a) vs) by auto. fold dyn.
    rewrite <- (map_fst_combine (static_names a) (static_values a)) by auto. fold st.
    rewrite <- (map_snd_combine (static_names a) (static_values a)) by auto. fold st.
    clearbody dyn st. clear L1 L2. revert dyn st HS. induction fields as [|f fs IH]; intros dyn st HS; cbn in HS.
    - inv HS. cbn. repeat split; constructor.
    - destruct (split_fields fs d) as [dyn0 st0]. destruct (IH _ _ eq_refl) as (I1 & I2 & I3 & I4).
      cbn. destruct (aget d (f_name f)) eqn:Ev; [destruct (f_static f) eqn:Es|]; inv HS; cbn.
      + rewrite Ev. cbn. rewrite I1, I3 at 1. repeat split; auto.
      + rewrite Ev. cbn. rewrite I1, I3 at 1. repeat split; auto.
      + destruct (f_static f) eqn:Es; cbn; rewrite Ev; repeat split; auto.
  Qed.
End Facts.
