From Verif Require Export TreeAt_Spec TreeEq_Proofs.

(** ** Lists *)
Lemma mapi_length {X Y} (f : nat -> X -> Y) l : forall i, length (mapi f i l) = length l.
Proof. induction l; intros; cbn; auto. Qed.
Lemma nth_error_mapi {X Y} (f : nat -> X -> Y) l : forall i n,
  nth_error (mapi f i l) n = option_map (f (i + n)) (nth_error l n).
Proof.
  induction l as [|x l IH]; intros i [|n]; cbn; auto.
  - rewrite Nat.add_0_r; auto.
  - rewrite IH, Nat.add_succ_r; auto.
Qed.
Lemma In_mapi {X Y} (f : nat -> X -> Y) l y : forall i,
  In y (mapi f i l) <-> exists n x, nth_error l n = Some x /\ y = f (i + n) x.
Proof.
  intros i. split.
  - intros H. apply In_nth_error in H as [n Hn]. rewrite nth_error_mapi in Hn.
    destruct (nth_error l n) as [x|] eqn:E; cbn in Hn; inv Hn. eauto.
  - intros (n & x & Hn & ->). apply nth_error_In with n. rewrite nth_error_mapi, Hn; auto.
Qed.
Lemma mapM_Forall2 {X Y} (f : X -> res Y) l ys :
  mapM f l = Ok ys <-> Forall2 (fun x y => f x = Ok y) l ys.
Proof.
  split.
  - revert ys; induction l as [|x l IH]; intros ys H; cbn in H; bind_inv; auto.
  - induction 1 as [|x y l ys H _ IH]; cbn; auto. rewrite H; cbn. rewrite IH; auto.
Qed.
Lemma Forall2_nth_l {X Y} (R : X -> Y -> Prop) l r i x :
  Forall2 R l r -> nth_error l i = Some x -> exists y, nth_error r i = Some y /\ R x y.
Proof.
  intros H; revert i; induction H; intros [|i] Hi; cbn in Hi; try discriminate; inv Hi; cbn; eauto.
Qed.
Lemma Forall2_nth_rr {X Y} (R : X -> Y -> Prop) l r i y :
  Forall2 R l r -> nth_error r i = Some y -> exists x, nth_error l i = Some x /\ R x y.
Proof.
  intros H; revert i; induction H; intros [|i] Hi; cbn in Hi; try discriminate; inv Hi; cbn; eauto.
Qed.
Lemma In_concat_nth {X} (ls : list (list X)) x :
  In x (concat ls) <-> exists n l, nth_error ls n = Some l /\ In x l.
Proof.
  rewrite in_concat. split.
  - intros (l & Hl & Hx). apply In_nth_error in Hl as [n Hn]. eauto.
  - intros (n & l & Hn & Hx). exists l; split; auto. eapply nth_error_In; eauto.
Qed.

(** ** Paths *)
Lemma prefix_nil q : prefix [] q. Proof. exists q; auto. Qed.
Lemma prefix_refl q : prefix q q. Proof. exists []; rewrite app_nil_r; auto. Qed.
Lemma prefix_cons i p j q : prefix (i :: p) (j :: q) <-> i = j /\ prefix p q.
Proof.
  split.
  - intros [r E]. cbn in E. inv E. split; auto. exists r; auto.
  - intros [-> [r ->]]. exists r; auto.
Qed.
Lemma prefix_of_nil p : prefix p [] -> p = [].
Proof. intros [r E]. destruct p; auto; discriminate. Qed.
Lemma prefix_cases p q : prefix p q -> p = q \/ strict_prefix p q.
Proof. intros [[|i r] ->]; [left; rewrite app_nil_r; auto|right; exists i, r; auto]. Qed.
Lemma strict_prefix_prefix p q : strict_prefix p q -> prefix p q.
Proof. intros (i & r & ->). exists (i :: r); auto. Qed.
Lemma strict_prefix_irrefl p : ~ strict_prefix p p.
Proof.
  intros (i & r & E). apply (f_equal (@length nat)) in E. rewrite app_length in E. cbn in E. lia.
Qed.
Lemma strict_prefix_cons i p j q : strict_prefix (i :: p) (j :: q) <-> i = j /\ strict_prefix p q.
Proof.
  split.
  - intros (k & r & E). cbn in E. inv E. split; auto. exists k, r; auto.
  - intros [-> (k & r & ->)]. exists k, r; auto.
Qed.
Lemma strict_nil i q : strict_prefix [] (i :: q). Proof. exists i, q; auto. Qed.
Lemma prefix_antisym p q : prefix p q -> prefix q p -> p = q.
Proof.
  intros [r ->] [r' E]. rewrite <- app_assoc in E.
  apply (f_equal (@length nat)) in E. rewrite !app_length in E.
  destruct r; [rewrite app_nil_r; auto|cbn in E; lia].
Qed.

(** ** Trees at positions *)
Lemma sub_app {A} (t : tree A) p q :
  sub t (p ++ q) = match sub t p with Some s => sub s q | None => None end.
Proof.
  revert t; induction p as [|i p IH]; intros t; cbn; auto.
  destruct t; auto. destruct (nth_error cs i); auto.
Qed.
Lemma label_at_cons {A} k (cs : list (tree A)) i q :
  label_at (Node k cs) (i :: q) = match nth_error cs i with Some c => label_at c q | None => None end.
Proof. unfold label_at; cbn. destruct (nth_error cs i); auto. Qed.

(** Two trees with the same labels everywhere are equal. *)
Lemma label_ext {A} (t u : tree A) : (forall q, label_at t q = label_at u q) -> t = u.
Proof.
  revert u; induction t as [a| |k cs IH] using tree_ind'; intros u H; pose proof (H []) as H0;
    unfold label_at in H0; cbn in H0; destruct u; cbn in H0; inv H0; auto.
  f_equal. assert (HN : forall i q, match nth_error cs i with Some c => label_at c q | None => None end =
                          match nth_error cs0 i with Some c => label_at c q | None => None end).
  { intros i q. specialize (H (i :: q)). rewrite !label_at_cons in H. exact H. }
  clear H. revert cs0 H3 HN; induction IH as [|c cs Hc _ IHcs]; intros [|d ds] HL HN; cbn in HL;
    try discriminate; auto.
  f_equal.
  - apply Hc. intros q. exact (HN 0 q).
  - apply IHcs; [congruence|]. intros i q. exact (HN (S i) q).
Qed.

(** Editing determines the result. *)
Lemma edited_unique {A} (t : tree A) e o o' : edited t e o -> edited t e o' -> o = o'.
Proof.
  intros [H1 H2] [H1' H2']. apply label_ext. intros q.
  destruct (Exists_dec (fun pr => prefix (fst pr) q) e) as [Hex|Hnex].
  { intros [p r]. cbn. destruct (list_eq_dec Nat.eq_dec (firstn (length p) q) p) as [E|N].
    - left. exists (skipn (length p) q). rewrite <- E at 1. symmetry; apply firstn_skipn.
    - right. intros [s ->]. apply N. rewrite firstn_app, Nat.sub_diag, firstn_all, firstn_O, app_nil_r; auto. }
  - apply Exists_exists in Hex as ([p r] & Hin & [s ->]). cbn in *.
    unfold label_at. rewrite !sub_app, (H1 _ _ Hin), (H1' _ _ Hin). auto.
  - assert (HN : forall p r, In (p, r) e -> ~ prefix p q).
    { intros p r Hin Hp. apply Hnex, Exists_exists. exists (p, r); auto. }
    rewrite H2, H2'; auto.
Qed.

(** ** Objects *)
Section Pyobj_ind.
  Variable A : Type.
  Variable P : pyobj A -> Prop.
  Hypothesis HL : forall a, P (PLeaf a).
  Hypothesis HN : P PNone.
  Hypothesis HB : forall i k cs, Forall P cs -> P (PNode i k cs).
  Hypothesis HW : forall i x, P x -> P (PWrap i x).
  Hypothesis HD : forall i, P (PDist i).
  Fixpoint pyobj_ind' (x : pyobj A) : P x :=
    match x with
    | PLeaf a => HL a
    | PNone => HN
    | PNode i k cs => HB i k cs
        ((fix go (l : list (pyobj A)) : Forall P l :=
            match l with
            | [] => Forall_nil P
            | c :: l' => Forall_cons c (pyobj_ind' c) (go l')
            end) cs)
    | PWrap i v => HW i v (pyobj_ind' v)
    | PDist i => HD i
    end.
End Pyobj_ind.

Lemma ident_eqb_eq x y : ident_eqb x y = true <-> x = y.
Proof.
  destruct x as [m p], y as [n q]. unfold ident_eqb; cbn [fst snd].
  rewrite andb_true_iff, Nat.eqb_eq. fold shape_eqb. rewrite shape_eqb_eq.
  split; [intros [-> ->]; auto|intros H; inv H; auto].
Qed.
Lemma ident_eqb_refl x : ident_eqb x x = true.
Proof. apply ident_eqb_eq; auto. Qed.

Lemma erase_embed {A} (t : tree A) : erase (embed t) = t.
Proof.
  induction t as [a| |k cs IH] using tree_ind'; cbn; auto. f_equal.
  induction IH as [|c cs Hc _ IHcs]; cbn; auto. rewrite Hc, IHcs; auto.
Qed.
Lemma leaks_embed {A} (t : tree A) : leaks (embed t) = false.
Proof.
  induction t as [a| |k cs IH] using tree_ind'; cbn; auto.
  induction IH as [|c cs Hc _ IHcs]; cbn; auto. rewrite Hc, IHcs; auto.
Qed.
Lemma erase_copy1 {A} (t : tree A) : forall rp, erase (copy1 rp t) = t.
Proof.
  induction t as [a| |k cs IH] using tree_ind'; intros rp; cbn; auto.
  destruct (Nat.eqb_spec k ktuple) as [->|Hk]; cbn [andb].
  - destruct cs as [|c cs]; cbn [length Nat.eqb]; auto.
    cbn. f_equal. inv IH. f_equal; auto. clear H1. generalize 1 as i.
    induction H2 as [|d cs Hd _ IHcs]; intros i; cbn; auto. f_equal; auto.
  - cbn. f_equal. generalize 0 as i. induction IH as [|d cs Hd _ IHcs]; intros i; cbn; auto.
    f_equal; auto.
Qed.
Lemma leaks_copy1 {A} (t : tree A) : forall rp, leaks (copy1 rp t) = false.
Proof.
  induction t as [a| |k cs IH] using tree_ind'; intros rp; cbn; auto.
  destruct (_ && _); auto. cbn. generalize 0 as i.
  induction IH as [|d cs Hd _ IHcs]; intros i; cbn; auto. rewrite Hd, IHcs; auto.
Qed.

(** No position of the list lies at or below another one. *)
Definition pfree {V} (l : list (path * V)) : Prop :=
  forall i j p s q r, nth_error l i = Some (p, s) -> nth_error l j = Some (q, r) -> prefix p q -> i = j.
Definition push {V} (n : nat) (pv : path * V) : path * V := (n :: fst pv, snd pv).

Lemma pfree_nil {V} : pfree (@nil (path * V)).
Proof. intros i j p s q r H; destruct i; discriminate. Qed.
Lemma pfree_one {V} (x : path * V) : pfree [x].
Proof.
  intros i j p s q r Hi Hj _; destruct i as [|[|i]], j as [|[|j]]; cbn in Hi, Hj; try discriminate; auto.
Qed.
Lemma pushed_min {V W} (g : W -> list (path * V)) cs : forall n i p s,
  nth_error (concat (mapi (fun i c => map (push i) (g c)) n cs)) i = Some (p, s) ->
  exists m q, p = m :: q /\ n <= m.
Proof.
  induction cs as [|c cs IH]; intros n i p s H; cbn in H; [destruct i; discriminate|].
  destruct (Nat.lt_ge_cases i (length (map (push n) (g c)))) as [L|G].
  - rewrite nth_error_app1 in H by auto. apply nth_error_In, in_map_iff in H as ([q v] & E & _).
    inv E. eauto.
  - rewrite nth_error_app2 in H by auto. apply IH in H as (m & q & -> & ?).
    exists m, q; split; auto; lia.
Qed.
Lemma pfree_concat {V W} (g : W -> list (path * V)) cs : Forall (fun c => pfree (g c)) cs ->
  forall n, pfree (concat (mapi (fun i c => map (push i) (g c)) n cs)).
Proof.
  induction 1 as [|c cs Hc _ IHcs]; intros n i j p s q r Hi Hj HP; cbn in Hi, Hj; [destruct i; discriminate|].
  set (L := map (push n) (g c)) in *.
  destruct (Nat.lt_ge_cases i (length L)) as [Li|Gi];
    destruct (Nat.lt_ge_cases j (length L)) as [Lj|Gj].
  - rewrite nth_error_app1 in Hi, Hj by auto. unfold L in Hi, Hj.
    rewrite nth_error_map in Hi, Hj.
    destruct (nth_error (g c) i) as [[p' s']|] eqn:Ei; cbn in Hi; inv Hi.
    destruct (nth_error (g c) j) as [[q' r']|] eqn:Ej; cbn in Hj; inv Hj.
    apply prefix_cons in HP as [_ HP]. eapply Hc; eauto.
  - rewrite nth_error_app1 in Hi by auto. rewrite nth_error_app2 in Hj by auto.
    apply pushed_min in Hj as (m & q' & -> & Hm). unfold L in Hi.
    apply nth_error_In, in_map_iff in Hi as ([p' v'] & E & _).
    inv E. apply prefix_cons in HP as [-> _]. lia.
  - rewrite nth_error_app2 in Hi by auto. rewrite nth_error_app1 in Hj by auto.
    apply pushed_min in Hi as (m & q' & -> & Hm). unfold L in Hj.
    apply nth_error_In, in_map_iff in Hj as ([p' v'] & E & _).
    inv E. apply prefix_cons in HP as [-> _]. lia.
  - rewrite nth_error_app2 in Hi, Hj by auto.
    assert (i - length L = j - length L); [|lia]. eapply IHcs; eauto.
Qed.

(** ** Replacement, for an arbitrary dictionary of nodes *)
Section Replace.
  Context {A : Type} (aeq : A -> A -> bool).
  Variable d : list (pyobj A * (pyobj A -> res (pyobj A))).

  (** Visited objects with their positions. *)
  Fixpoint vis (x : pyobj A) : list (path * pyobj A) :=
    if contains aeq d x then [([], x)] else
    match x with
    | PNode _ _ cs => concat (mapi (fun i c => map (push i) (vis c)) 0 cs)
    | _ => []
    end.

  Lemma vis_visited x : map snd (vis x) = visited aeq d x.
  Proof.
    induction x as [a| |i k cs IH|i x IH|i] using pyobj_ind'; cbn;
      try (destruct (contains aeq d _); reflexivity).
    destruct (contains aeq d _); auto.
    rewrite concat_map. f_equal. generalize 0 as n.
    induction IH as [|c cs Hc _ IHcs]; intros n; cbn; auto.
    rewrite map_map. cbn. rewrite <- Hc. f_equal. auto.
  Qed.

  Lemma vis_node i k cs : contains aeq d (PNode i k cs) = false ->
    forall p s, In (p, s) (vis (PNode i k cs)) <->
    exists n q c, p = n :: q /\ nth_error cs n = Some c /\ In (q, s) (vis c).
  Proof.
    intros HC p s. cbn. rewrite HC, In_concat_nth. split.
    - intros (n & l & Hl & Hin). rewrite nth_error_mapi in Hl.
      destruct (nth_error cs n) as [c|] eqn:E; cbn in Hl; inv Hl.
      apply in_map_iff in Hin as ([q v] & EE & Hin). inv EE. exists n, q, c; auto.
    - intros (n & q & c & -> & Hc & Hin). exists n. eexists. split.
      + rewrite nth_error_mapi, Hc; reflexivity.
      + apply in_map_iff. exists (q, s); auto.
  Qed.
  Lemma vis_stop x : contains aeq d x = true -> vis x = [([], x)].
  Proof. intros H; destruct x; cbn; cbn in H; rewrite H; auto. Qed.

  Lemma lookup_contains {V} (l : list (pyobj A * V)) x :
    contains aeq l x = true <-> exists v, lookup aeq l x = Some v.
  Proof.
    induction l as [|[n v] l IH]; cbn.
    - split; [discriminate|intros [? ?]; discriminate].
    - rewrite orb_true_iff. unfold contains in IH. rewrite IH.
      destruct (lookup aeq l x); [split; eauto|].
      destruct (same aeq n x); split; eauto; intros [?|[? ?]]; try discriminate; eauto.
  Qed.

  (** The positions visited never lie below one another. *)
  Lemma vis_disjoint x : pfree (vis x).
  Proof.
    induction x as [a| |id k cs IH|id x IH|id] using pyobj_ind'; cbn;
      try (destruct (contains aeq d _); auto using pfree_one, pfree_nil).
    apply pfree_concat. exact IH.
  Qed.

  (** What replacement does at and away from visited positions. *)
  Lemma replace_all_spec x : forall y, replace_all aeq d x = Ok y ->
    (forall p s, In (p, s) (vis x) -> exists f r, lookup aeq d s = Some f /\ f s = Ok r /\
       sub (erase y) p = Some (erase r)) /\
    (forall q, (forall p s, In (p, s) (vis x) -> ~ prefix p q) ->
       label_at (erase y) q = label_at (erase x) q).
  Proof.
    assert (HS : forall x y, contains aeq d x = true -> make_replacement aeq d x = Ok y ->
      (forall p s, In (p, s) [([], x)] -> exists f r, lookup aeq d s = Some f /\ f s = Ok r /\
         sub (erase y) p = Some (erase r)) /\
      (forall q, (forall p s, In (p, s) [([], x)] -> ~ prefix p q) ->
         label_at (erase y) q = label_at (erase x) q)).
    { intros z y HC HM. split.
      - intros p s [E|[]]. inv E. apply lookup_contains in HC as [f Hf].
        unfold make_replacement in HM. rewrite Hf in HM. exists f, y; auto.
      - intros q H. exfalso. eapply H; [left; reflexivity|apply prefix_nil]. }
    assert (HU : forall x y, contains aeq d x = false -> make_replacement aeq d x = Ok y ->
      (forall q, label_at (erase y) q = label_at (erase x) q)).
    { intros z y HC HM q. unfold make_replacement in HM.
      destruct (lookup aeq d z) eqn:E.
      - assert (contains aeq d z = true) by (apply lookup_contains; eauto). congruence.
      - destruct z; cbn in HM; inv HM. auto. }
    induction x as [a| |id k cs IH|id x IH|id] using pyobj_ind'; intros y HR;
      cbn [replace_all] in HR; destruct (contains aeq d _) eqn:HC;
      try (rewrite vis_stop by auto; apply HS; auto; fail).
    - cbn [vis]; rewrite HC. split; [intros ? ? []|intros q _; apply HU; auto].
    - inv HR. cbn [vis]; rewrite HC. split; [intros ? ? []|auto].
    - apply rmap_ok in HR as (ys & HM & ->). apply mapM_Forall2 in HM. split.
      + intros p s Hin. apply vis_node in Hin as (n & q & c & -> & Hn & Hin); auto.
        destruct (Forall2_nth_l _ _ _ _ _ HM Hn) as (yc & Hyc & Hc).
        rewrite Forall_forall in IH. destruct (IH c (nth_error_In _ _ Hn) _ Hc) as [H1 _].
        destruct (H1 _ _ Hin) as (f & r & Hf & Hr & Hs). exists f, r. split; [auto|split; auto].
        cbn. rewrite nth_error_map, Hyc. exact Hs.
      + intros [|n q] Hq.
        * cbn. unfold label_at; cbn. rewrite !map_length. rewrite (Forall2_len _ _ _ HM); auto.
        * cbn [erase]. rewrite !label_at_cons, !nth_error_map.
          destruct (nth_error cs n) as [c|] eqn:Hn.
          -- destruct (Forall2_nth_l _ _ _ _ _ HM Hn) as (yc & Hyc & Hc). rewrite Hyc. cbn.
             rewrite Forall_forall in IH. destruct (IH c (nth_error_In _ _ Hn) _ Hc) as [_ H2].
             apply H2. intros p s Hin HP. apply (Hq (n :: p) s); [|apply prefix_cons; auto].
             apply vis_node; auto. exists n, p, c; auto.
          -- destruct (nth_error ys n) as [yc|] eqn:Hy; auto.
             destruct (Forall2_nth_rr _ _ _ _ _ HM Hy) as (c & Hc & _). congruence.
    - cbn [vis]; rewrite HC. split; [intros ? ? []|intros q _; apply HU; auto].
    - cbn [vis]; rewrite HC. split; [intros ? ? []|intros q _; apply HU; auto].
  Qed.

  (** When it succeeds. [dressed]: all leaves are wrapped. *)
  Fixpoint dressed (x : pyobj A) : bool :=
    match x with
    | PNone => true
    | PNode _ _ cs => forallb dressed cs
    | PWrap _ v => negb (leaks v)
    | _ => false
    end.
  Lemma replace_all_ok x : dressed x = true ->
    (forall p s, In (p, s) (vis x) -> exists f r, lookup aeq d s = Some f /\ f s = Ok r) ->
    exists y, replace_all aeq d x = Ok y.
  Proof.
    assert (HS : forall x, contains aeq d x = true ->
      (forall p s, In (p, s) (vis x) -> exists f r, lookup aeq d s = Some f /\ f s = Ok r) ->
      exists y, make_replacement aeq d x = Ok y).
    { intros z HC H. destruct (H [] z) as (f & r & Hf & Hr).
      - rewrite vis_stop by auto. left; reflexivity.
      - unfold make_replacement; rewrite Hf; eauto. }
    intros HD HV. induction x as [a| |id k cs IH|id x IH|id] using pyobj_ind';
      cbn [replace_all]; destruct (contains aeq d _) eqn:HC;
      try (apply HS; auto; fail); try discriminate; eauto.
    - assert (exists ys, mapM (replace_all aeq d) cs = Ok ys) as [ys ->]; [|cbn; eauto].
      apply mapM_ok_iff. apply Forall_forall. intros c Hc.
      apply In_nth_error in Hc as [n Hn].
      rewrite Forall_forall in IH. apply IH; [eapply nth_error_In; eauto| |].
      + cbn in HD. rewrite forallb_forall in HD. apply HD. eapply nth_error_In; eauto.
      + intros p s Hin. apply (HV (n :: p)). apply vis_node; auto. exists n, p, c; auto.
    - unfold make_replacement. destruct (lookup aeq d _) eqn:E.
      + assert (contains aeq d (PWrap id x) = true) by (apply lookup_contains; eauto). congruence.
      + cbn; eauto.
  Qed.
  Lemma replace_all_leaks x : dressed x = true -> forall y, replace_all aeq d x = Ok y ->
    (forall p s f r, In (p, s) (vis x) -> lookup aeq d s = Some f -> f s = Ok r -> leaks r = false) ->
    leaks y = false.
  Proof.
    intros HD. induction x as [a| |id k cs IH|id x IH|id] using pyobj_ind'; intros y HR HV;
      cbn [replace_all] in HR; destruct (contains aeq d _) eqn:HC; try discriminate;
      try (pose proof HC as HC'; apply lookup_contains in HC' as [f Hf];
           unfold make_replacement in HR; rewrite Hf in HR;
           eapply (HV [] _ f); eauto; rewrite vis_stop by auto; left; reflexivity).
    - inv HR; auto.
    - apply rmap_ok in HR as (ys & HM & ->). apply mapM_Forall2 in HM. cbn.
      destruct (existsb leaks ys) eqn:EX; auto. apply existsb_exists in EX as (y & Hy & HL).
      apply In_nth_error in Hy as [n Hn].
      destruct (Forall2_nth_rr _ _ _ _ _ HM Hn) as (c & Hc & Hr).
      rewrite Forall_forall in IH. rewrite (IH c) in HL; auto; try discriminate.
      + eapply nth_error_In; eauto.
      + cbn in HD. rewrite forallb_forall in HD. apply HD. eapply nth_error_In; eauto.
      + intros p s f r Hin. apply (HV (n :: p)). apply vis_node; auto. exists n, p, c; auto.
    - unfold make_replacement in HR. destruct (lookup aeq d _) eqn:E.
      + assert (contains aeq d (PWrap id x) = true) by (apply lookup_contains; eauto). congruence.
      + cbn in HR. inv HR. cbn in HD. apply negb_true_iff in HD. auto.
  Qed.
End Replace.
