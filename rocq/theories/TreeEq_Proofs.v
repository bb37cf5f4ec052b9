From Coq Require Import Lqa.
From Verif Require Export TreeEq_Spec.
Open Scope nat_scope.

Lemma Forall2_len {A B} (R : A -> B -> Prop) l r : Forall2 R l r -> length l = length r.
Proof. induction 1; cbn; auto. Qed.

Lemma tree_eqb_node {A} (eqb : A -> A -> bool) k cs k' ds :
  tree_eqb eqb (Node k cs) (Node k' ds) = Nat.eqb k k' && list_eqb (tree_eqb eqb) cs ds.
Proof.
  cbn. f_equal. revert ds; induction cs as [|c cs IH]; intros [|d ds]; cbn; auto.
  f_equal; auto.
Qed.

Lemma list_eqb_Forall2 {A} (eqb : A -> A -> bool) (R : A -> A -> Prop) l r :
  (forall x y, eqb x y = true <-> R x y) ->
  list_eqb eqb l r = true <-> Forall2 R l r.
Proof.
  intros HR. revert r; induction l as [|x l IH]; intros [|y r]; cbn.
  - split; auto.
  - split; [discriminate|intros H; inv H].
  - split; [discriminate|intros H; inv H].
  - rewrite andb_true_iff, HR, IH. split; [intros [? ?]; auto|intros H; inv H; auto].
Qed.

Lemma tree_eqb_eq {A} (eqb : A -> A -> bool) (t u : tree A) :
  (forall x y, eqb x y = true <-> x = y) -> tree_eqb eqb t u = true <-> t = u.
Proof.
  intros HE. revert u; induction t as [a| |k cs IH] using tree_ind'; intros [b| |k' ds];
    try (cbn; split; congruence).
  - cbn. rewrite HE. split; congruence.
  - rewrite tree_eqb_node, andb_true_iff, Nat.eqb_eq.
    assert (H : list_eqb (tree_eqb eqb) cs ds = true <-> cs = ds).
    { clear k k'. revert ds; induction IH as [|c cs Hc _ IHcs]; intros [|d ds]; cbn;
        try (split; congruence).
      rewrite andb_true_iff, Hc, IHcs. split; [intros [-> ->]; auto|intros E; inv E; auto]. }
    rewrite H. split; [intros [-> ->]; auto|intros E; inv E; auto].
Qed.

Lemma treedef_eqb_eq t u : treedef_eqb t u = true <-> t = u.
Proof. apply tree_eqb_eq. intros [] []; split; auto. Qed.

Lemma elem_eqb_spec x y : elem_eqb x y = true <-> num_eq x y.
Proof.
  destruct x, y; cbn; try (split; [discriminate|tauto]).
  - destruct neg, neg0; cbn; split; congruence.
  - apply Qeq_bool_iff.
Qed.
Lemma elem_close_spec r a x y : elem_close r a x y = true <-> num_close r a x y.
Proof.
  destruct x, y; cbn; try (split; [discriminate|tauto]).
  - destruct neg, neg0; cbn; split; congruence.
  - apply Qle_bool_iff.
Qed.

Lemma Qabs_zero q : (Qabs q <= 0)%Q <-> (q == 0)%Q.
Proof.
  split; intros H.
  - pose proof (Qle_Qabs q) as H1. pose proof (Qle_Qabs (- q)) as H2.
    rewrite Qabs_opp in H2. lra.
  - rewrite H. apply Qle_refl.
Qed.
Lemma close_zero r a x y : (r == 0)%Q -> (a == 0)%Q -> num_close r a x y <-> num_eq x y.
Proof.
  intros Hr Ha. destruct x, y; try (cbn; tauto). unfold num_close, num_eq.
  assert (E : (a + r * Qabs q0 == 0)%Q) by (rewrite Hr, Ha; ring).
  rewrite E, Qabs_zero. split; intros H; lra.
Qed.

Lemma dtype_eqb_eq x y : dtype_eqb x y = true <-> x = y.
Proof. destruct x, y; cbn; rewrite ?Nat.eqb_eq; split; congruence. Qed.
Lemma shape_eqb_eq x y : shape_eqb x y = true <-> x = y.
Proof.
  unfold shape_eqb. rewrite (list_eqb_Forall2 _ eq); [|intros; apply Nat.eqb_eq].
  split; [intros H; induction H; congruence|intros ->; induction y; auto].
Qed.
Lemma class_eqb_eq x y : class_eqb x y = true <-> x = y.
Proof. destruct x, y; cbn; split; congruence. Qed.

Lemma array_equal_spec rt at_ a b :
  array_equal rt at_ a b = true <->
  values_agree (tol_val rt) (tol_val at_) (a_dtype a) (a_data a) (a_data b).
Proof.
  unfold array_equal, values_agree.
  destruct (a_dtype a); cbn [inexact negb];
    try (rewrite orb_true_r; apply list_eqb_Forall2, elem_eqb_spec).
  rewrite orb_false_r. destruct (py_zero rt && py_zero at_) eqn:Z.
  - apply andb_true_iff in Z as [Z1 Z2].
    apply list_eqb_Forall2. intros x y. rewrite elem_eqb_spec.
    symmetry. apply close_zero.
    + destruct rt; cbn in *; [apply Qeq_bool_iff; auto|discriminate].
    + destruct at_; cbn in *; [apply Qeq_bool_iff; auto|discriminate].
  - apply list_eqb_Forall2, elem_close_spec.
Qed.

(** Leaf relation. *)
Definition leaf_agree tm r a (x y : obj) : Prop :=
  match x, y with
  | OArr a1, OArr b1 => array_agree tm r a a1 b1
  | OPy t v, OPy u w => py_agree tm t v u w
  | _, _ => False
  end.

Lemma py_agree_spec tm t v u w :
  py_agree tm t v u w <-> (tm && negb (Nat.eqb t u) = false /\ pyval_eqb v w = true).
Proof.
  unfold py_agree. split; intros [H1 H2]; split.
  - destruct tm; cbn; auto. rewrite H1; auto. now rewrite Nat.eqb_refl.
  - destruct v, w; cbn; try tauto; [now apply elem_eqb_spec|now apply Nat.eqb_eq].
  - intros ->. cbn in H1. apply negb_false_iff, Nat.eqb_eq in H1. auto.
  - destruct v, w; cbn in *; try discriminate; [now apply elem_eqb_spec|now apply Nat.eqb_eq].
Qed.

Section S.
  Variables (tm : bool) (rt at_ : tol).
  Notation r := (tol_val rt). Notation a := (tol_val at_).

  Lemma equal_leaves_truth l : forall rr acc, length l = length rr ->
    (exists o, equal_leaves tm rt at_ acc l rr = Some o /\ truth o = true) <->
    (truth acc = true /\ Forall2 (leaf_agree tm r a) l rr).
  Proof.
    induction l as [|x l IH]; intros [|y rr] acc HL; try discriminate.
    - cbn. split; [intros (o & E & T); inv E; auto|intros [? _]; eauto].
    - injection HL as HL.
      assert (HF : forall P : Prop, (P <-> (truth acc = true /\ leaf_agree tm r a x y /\
                     Forall2 (leaf_agree tm r a) l rr)) ->
              (P <-> (truth acc = true /\ Forall2 (leaf_agree tm r a) (x :: l) (y :: rr)))).
      { intros P HP. rewrite HP. split; [intros (? & ? & ?); auto|].
        intros (? & HH); inv HH; auto. }
      apply HF; clear HF.
      cbn [equal_leaves]. destruct x as [a1|t v], y as [b1|u w]; cbn [same_type is_numpy].
      + cbn [leaf_agree]. unfold array_agree.
        rewrite <- (array_equal_spec rt at_ a1 b1), <- shape_eqb_eq, <- dtype_eqb_eq.
        destruct tm, (class_eqb (a_class a1) (a_class b1)) eqn:EC; cbn [andb negb];
          try (apply class_eqb_eq in EC).
        2:{ split; [intros (o & E & _); discriminate|].
            intros (_ & (H & _) & _). apply class_eqb_eq in H; auto. congruence. }
        all: destruct (shape_eqb (a_shape a1) (a_shape b1)) eqn:ES,
               (dtype_eqb (a_dtype a1) (a_dtype b1)) eqn:ED; cbn [negb orb];
             try (destruct (match a_class a1 with JaxArray => _ | _ => _ end && _);
                  (split; [intros (o & E & _); discriminate|intros (_ & (_ & ? & ? & _) & _); discriminate])).
        all: destruct (match a_class a1 with JaxArray => _ | _ => _ end && _);
             destruct (array_equal rt at_ a1 b1) eqn:EA; cbn [negb].
        all: try (split; [intros (o & E & _); discriminate
                         |intros (_ & (_ & _ & _ & ?) & _); discriminate]).
        all: rewrite IH by auto.
        all: assert (TA : forall b, truth (and_arr acc b) = true <-> truth acc = true /\ b = true)
               by (intros; apply andb_true_iff); rewrite ?TA; clear TA.
        all: clear IH; split; [intros [H1 H2]|intros (H1 & H2 & H3)].
        all: repeat split; try tauto; try congruence.
      + cbn [leaf_agree]. split; [intros (o & E & _); destruct (tm && negb false); discriminate|tauto].
      + cbn [leaf_agree]. split; [intros (o & E & _); destruct (tm && negb false); discriminate|tauto].
      + cbn [leaf_agree]. rewrite py_agree_spec.
        destruct (tm && negb (Nat.eqb t u)); [split; [intros (o & E & _); discriminate|
           intros (_ & (? & _) & _); discriminate]|].
        destruct (pyval_eqb v w).
        * rewrite IH by auto. split; [intros [? ?]; auto|intros (? & _ & ?); auto].
        * split; [intros (o & E & _); discriminate|intros (_ & (_ & ?) & _); discriminate].
  Qed.

  (** Structure and leaves together. *)
  Lemma same_tree_flat t u :
    same_tree tm r a t u <->
    treedef no_leaf u = treedef no_leaf t /\ Forall2 (leaf_agree tm r a) (objs t) (objs u).
  Proof.
    revert u; induction t as [x| |k cs IH] using tree_ind'; intros [y| |k' ds];
      try (cbn; split; [intros H; inv H|intros [E _]; congruence]).
    - cbn. split.
      + intros H; inv H; split; auto.
      + intros [_ H]; inv H. destruct x, y; cbn in *; try tauto; constructor; auto.
    - cbn. split; auto using st_none.
    - assert (HH : Forall2 (same_tree tm r a) cs ds <->
        map (treedef no_leaf) ds = map (treedef no_leaf) cs /\
        Forall2 (leaf_agree tm r a) (flat_map objs cs) (flat_map objs ds)).
      { clear k k'. revert ds; induction IH as [|c cs Hc _ IHcs]; intros [|d ds]; cbn.
        - split; auto.
        - split; [intros H; inv H|intros [E _]; discriminate].
        - split; [intros H; inv H|intros [E _]; discriminate].
        - split.
          + intros H; inv H. apply Hc in H3 as [E1 F1]. apply IHcs in H5 as [E2 F2].
            split; [congruence|]. apply Forall2_app; auto.
          + intros [E F]. injection E as E1 E2.
            assert (HL : length (objs c) = length (objs d)).
            { clear -E1. revert d E1; induction c as [z| |kk cc IHc] using tree_ind';
                intros [z'| |kk' dd] E; cbn in *; try discriminate; auto.
              injection E as -> E. unfold objs. cbn.
              revert dd E; induction IHc as [|e cc He _ IH2]; intros [|f dd] E; cbn in *;
                try discriminate; auto.
              injection E as E1 E2. rewrite !flat_map_app, !app_length.
              f_equal; [apply He; auto|apply IH2; auto]. }
            apply Forall2_app_inv_l in F as (l1 & l2 & F1 & F2 & EE).
            assert (l1 = objs d /\ l2 = flat_map objs ds) as [-> ->].
            { apply Forall2_len in F1. rewrite HL in F1.
              clear -F1 EE. revert F1 EE. generalize (objs d) as o, (flat_map objs ds) as l. clear.
              intros o; revert l1; induction o as [|z o IH]; intros [|w l1] l H E; cbn in H, E;
                try discriminate; auto. injection E as -> E. injection H as H.
              destruct (IH l1 l H E); subst; auto. }
            constructor; [apply Hc; auto|apply IHcs; auto]. }
      assert (OB : forall xs, flat_map (fun v : tree obj => match v with Leaf b => [b] | _ => [] end)
                (concat (map (leaves no_leaf) xs)) = flat_map objs xs).
      { induction xs as [|z xs IHx]; cbn; auto. rewrite flat_map_app, IHx; auto. }
      unfold objs at 1 2. cbn [leaves no_leaf treedef]. rewrite !OB. split.
      + intros H; inversion H as [| | |? ? ? F0]; subst. apply HH in F0 as [E F]. split; auto. cbn. f_equal; auto.
      + cbn. intros [E F]. injection E as -> E. constructor. apply HH. auto.
  Qed.

  Lemma objs_length t u : treedef no_leaf u = treedef no_leaf t -> length (objs t) = length (objs u).
  Proof.
    revert u; induction t as [z| |kk cc IHc] using tree_ind';
      intros [z'| |kk' dd] E; cbn in *; try discriminate; auto.
    injection E as -> E. unfold objs. cbn.
    revert dd E; induction IHc as [|e cc He _ IH2]; intros [|f dd] E; cbn in *;
      try discriminate; auto.
    injection E as E1 E2. rewrite !flat_map_app, !app_length.
    f_equal; [apply He; auto|apply IH2; auto].
  Qed.

  Lemma equal_leaves_mono l : forall rr acc o,
    equal_leaves tm rt at_ acc l rr = Some o -> truth o = true -> truth acc = true.
  Proof.
    induction l as [|x l IH]; intros [|y rr] acc o H T; cbn in H; try (inv H; auto).
    destruct (tm && _); [discriminate|].
    destruct x, y; try discriminate.
    - destruct (_ && _); destruct (_ || _); try discriminate; eauto.
      eapply IH in H1; eauto. cbn in H1. apply andb_true_iff in H1; tauto.
    - destruct (pyval_eqb _ _); [eauto|discriminate].
  Qed.

  Lemma equal_rest_spec t : forall ts acc,
    truth (equal_rest tm rt at_ acc t ts) = true <->
    truth acc = true /\ forall u, In u ts -> same_tree tm r a t u.
  Proof.
    induction ts as [|u ts IH]; intros acc; cbn [equal_rest].
    - split; [intros H; split; auto; intros u []|tauto].
    - destruct (treedef_eqb (treedef no_leaf u) (treedef no_leaf t)) eqn:ET; cbn [negb].
      + apply treedef_eqb_eq in ET.
        pose proof (equal_leaves_truth (objs t) (objs u) acc (objs_length _ _ ET)) as HE.
        destruct (equal_leaves tm rt at_ acc (objs t) (objs u)) as [acc'|] eqn:EL.
        * rewrite IH. split.
          -- intros [T H]. destruct (proj1 HE) as [T' F]; [eauto|]. split; auto.
             intros v [<-|Hv]; auto. apply same_tree_flat; auto.
          -- intros [T H]. specialize (H u (or_introl eq_refl)) as Hu.
             apply same_tree_flat in Hu as [_ F].
             destruct (proj2 HE (conj T F)) as (o & E & TO). inv E.
             split; auto. intros v Hv; apply H; right; auto.
        * cbn. split; [discriminate|]. intros [T H].
          specialize (H u (or_introl eq_refl)). apply same_tree_flat in H as [_ F].
          destruct (proj2 HE (conj T F)) as (o & E & TO). discriminate.
      + cbn. split; [discriminate|]. intros [T H].
        specialize (H u (or_introl eq_refl)). apply same_tree_flat in H as [E _].
        apply treedef_eqb_eq in E. congruence.
  Qed.

  (** [tree_equal] is [True] exactly for equal trees. *)
  Lemma tree_equal_spec t ts o :
    tree_equal tm rt at_ (t :: ts) = Ok o ->
    truth o = true <-> forall u, In u ts -> same_tree tm r a t u.
  Proof. cbn. intros H; inv H. rewrite equal_rest_spec. cbn. tauto. Qed.

  (** The answer is a Python bool unless a JAX array took part. *)
  Definition pair_jax (x y : obj) : bool :=
    match x, y with OArr _, OArr _ => negb (is_numpy x && is_numpy y) | _, _ => false end.
  Lemma equal_leaves_kind l : forall rr acc o, length l = length rr ->
    equal_leaves tm rt at_ acc l rr = Some o ->
    match o with
    | RPy _ => (match acc with RPy _ => True | _ => False end) /\ Forall2 (fun x y => pair_jax x y = false) l rr
    | RArr _ => (match acc with RArr _ => True | _ => False end) \/
                exists i x y, nth_error l i = Some x /\ nth_error rr i = Some y /\ pair_jax x y = true
    end.
  Proof.
    induction l as [|x l IH]; intros [|y rr] acc o HL H; try discriminate.
    - cbn in H; inv H. destruct o; auto.
    - injection HL as HL. cbn [equal_leaves] in H.
      destruct (tm && _); [discriminate|].
      assert (STEP : forall acc', equal_leaves tm rt at_ acc' l rr = Some o ->
         (match acc' with RPy _ => match acc with RPy _ => pair_jax x y = false | _ => False end
          | RArr _ => match acc with RArr _ => True | RPy _ => pair_jax x y = true end end) ->
         match o with
         | RPy _ => (match acc with RPy _ => True | _ => False end) /\ Forall2 (fun x y => pair_jax x y = false) (x :: l) (y :: rr)
         | RArr _ => (match acc with RArr _ => True | _ => False end) \/
                exists i x0 y0, nth_error (x :: l) i = Some x0 /\ nth_error (y :: rr) i = Some y0 /\ pair_jax x0 y0 = true
         end).
      { intros acc' HE HA. specialize (IH _ _ _ HL HE). destruct o.
        - destruct IH as [IA IF]. destruct acc'; [|tauto]. destruct acc; [|tauto]. auto.
        - destruct IH as [IA|(i & x0 & y0 & ? & ? & ?)].
          + destruct acc'; [tauto|]. destruct acc; [right|left; auto].
            exists 0, x, y; auto.
          + right. exists (S i), x0, y0; auto. }
      destruct x as [a1|t v], y as [b1|u w]; try discriminate.
      + destruct (is_numpy (OArr a1) && is_numpy (OArr b1)) eqn:EN.
        * destruct (_ || _); [discriminate|]. eapply STEP; [exact H|].
          cbn [pair_jax]. rewrite EN. destruct acc; auto.
        * destruct (_ || _); [discriminate|]. eapply STEP; [exact H|].
          cbn [pair_jax and_arr]. rewrite EN. destruct acc; auto.
      + destruct (pyval_eqb v w); [|discriminate]. eapply STEP; [exact H|]. destruct acc; cbn; auto.
  Qed.
End S.

Lemma In_objs t o : In o (objs t) <-> has_leaf (eq o) t.
Proof.
  induction t as [x| |k cs IH] using tree_ind'.
  - cbn. split; [intros [->|[]]; constructor; auto|intros H; inv H; auto].
  - cbn. split; [tauto|intros H; inv H].
  - assert (OB : objs (Node k cs) = flat_map objs cs).
    { unfold objs. cbn. induction cs as [|z cs IHx]; cbn; auto.
      rewrite flat_map_app. inv IH. rewrite IHx; auto. }
    rewrite OB, in_flat_map. rewrite Forall_forall in IH. split.
    + intros (c & Hc & Ho). econstructor; eauto. apply IH; auto.
    + intros H; inv H. exists c. split; auto. apply IH; auto.
Qed.

Lemma has_leaf_exists P t : has_leaf P t <-> exists o, In o (objs t) /\ P o.
Proof.
  split.
  - induction 1 as [o Ho|k cs c Hc _ (o & Ho & HP)].
    + exists o; cbn; auto.
    + exists o; split; auto. apply In_objs. econstructor; eauto. apply In_objs; auto.
  - intros (o & Ho & HP). apply In_objs in Ho. induction Ho as [o' E|k cs c Hc _ IH]; [subst; constructor; auto|econstructor; eauto].
Qed.

Lemma num_eq_refl x : x <> ENaN -> num_eq x x.
Proof. destruct x; intros H; [congruence|reflexivity|apply Qeq_refl]. Qed.
Lemma num_eq_sym x y : num_eq x y -> num_eq y x.
Proof. destruct x, y; unfold num_eq; try tauto; [congruence|apply Qeq_sym]. Qed.
Lemma num_eq_trans x y z : num_eq x y -> num_eq y z -> num_eq x z.
Proof. destruct x, y, z; unfold num_eq; try tauto; [congruence|apply Qeq_trans]. Qed.
Lemma num_close_refl r a x : (0 <= r)%Q -> (0 <= a)%Q -> x <> ENaN -> num_close r a x x.
Proof.
  intros Hr Ha Hx. destruct x; [congruence|reflexivity|]. unfold num_close.
  assert (E : (q - q == 0)%Q) by ring. rewrite E.
  change (Qabs 0) with 0%Q.
  rewrite <- (Qplus_0_r 0) at 1. apply Qplus_le_compat; auto.
  apply Qmult_le_0_compat; auto. apply Qabs_nonneg.
Qed.

Lemma Forall2_refl_if {A} (R : A -> A -> Prop) (P : A -> Prop) l :
  (forall x, P x -> R x x) -> Forall P l -> Forall2 R l l.
Proof. intros H; induction 1; auto. Qed.
Lemma Forall2_flip {A B} (R : A -> B -> Prop) (R' : B -> A -> Prop) l r :
  (forall x y, R x y -> R' y x) -> Forall2 R l r -> Forall2 R' r l.
Proof. intros H; induction 1; auto. Qed.
Lemma Forall2_trans {A} (R : A -> A -> Prop) l : (forall x y z, R x y -> R y z -> R x z) ->
  forall m n, Forall2 R l m -> Forall2 R m n -> Forall2 R l n.
Proof.
  intros H; induction l; intros m n H1 H2; inv H1; inv H2; constructor; eauto.
Qed.

Lemma same_tree_refl tm r a t : (0 <= r)%Q -> (0 <= a)%Q -> nan_free t -> same_tree tm r a t t.
Proof.
  intros Hr Ha. induction t as [x| |k cs IH] using tree_ind'; intros H; inv H.
  - destruct x as [x|ty v]; constructor.
    + cbn in H1. split; [auto|split; [auto|split; [auto|]]]. unfold values_agree.
      eapply Forall2_refl_if; [|exact H1]. intros e He.
      destruct (a_dtype x); auto using num_eq_refl, num_close_refl.
    + split; auto. destruct v; auto. cbn in H1. auto using num_eq_refl.
  - constructor.
  - constructor. induction IH; inv H1; constructor; auto.
Qed.

Definition exact_tol (r a : Q) := (r == 0)%Q /\ (a == 0)%Q.
Lemma agree_exact d r a x y : exact_tol r a ->
  values_agree r a d x y <-> Forall2 num_eq x y.
Proof.
  intros [Hr Ha]. unfold values_agree. destruct d; try tauto.
  split; intros H; induction H; constructor; auto; [now apply (close_zero r a)|now apply (close_zero r a)].
Qed.

Lemma same_tree_sym tm r a t : exact_tol r a -> forall u, same_tree tm r a t u -> same_tree tm r a u t.
Proof.
  intros HE. induction t as [x| |k cs IH] using tree_ind'; intros u H; inv H.
  - constructor. destruct H1 as (A & B & C & D). split; [|split; [auto|split; [auto|]]].
    { intros T; symmetry; auto. }
    rewrite <- C. apply agree_exact in D; auto. apply agree_exact; auto.
    eapply Forall2_flip; eauto using num_eq_sym.
  - constructor. destruct H1 as [A B]. split; [intros T; symmetry; auto|].
    destruct v, w; auto using num_eq_sym.
  - constructor.
  - constructor. clear k. revert ds H3; induction IH; intros ds F; inv F; constructor; auto.
Qed.

Lemma same_tree_trans tm r a t : exact_tol r a ->
  forall u v, same_tree tm r a t u -> same_tree tm r a u v -> same_tree tm r a t v.
Proof.
  intros HE. induction t as [x| |k cs IH] using tree_ind'; intros u v H1 H2.
  - inversion H1 as [|? y HA| t1 v1 u1 w1 HP|]; subst; inversion H2 as [|? z HA'|? ? t2 w2 HP'|]; subst.
    + constructor. destruct HA as (A & B & C & D), HA' as (A' & B' & C' & D').
      split; [|split; [congruence|split; [congruence|]]].
      { intros T; rewrite A; auto. }
      apply agree_exact in D; auto. apply agree_exact in D'; auto. apply agree_exact; auto.
      eapply Forall2_trans; eauto using num_eq_trans.
    + constructor. destruct HP as [A B], HP' as [A' B']. split; [intros T; rewrite A; auto|].
      destruct v1, w1, w2; try tauto; [eauto using num_eq_trans|congruence].
  - inv H1; inv H2; constructor.
  - inversion H1 as [| | |? ? ds F]; subst; inversion H2 as [| | |? ? es G]; subst.
    constructor. clear k H1 H2. revert ds es F G; induction IH; intros ds es F G; inv F; inv G;
      constructor; eauto.
Qed.

(** The kind of the answer. *)
Section Kind.
  Variables (tm : bool) (rt at_ : tol).

  Lemma equal_rest_py t : forall ts b,
    (forall u, In u (t :: ts) -> ~ has_leaf is_jax u) ->
    exists b', equal_rest tm rt at_ (RPy b) t ts = RPy b'.
  Proof.
    induction ts as [|u ts IH]; intros b H; cbn [equal_rest]; eauto.
    destruct (treedef_eqb _ _) eqn:E; cbn [negb]; eauto.
    apply treedef_eqb_eq, objs_length in E.
    destruct (equal_leaves tm rt at_ (RPy b) (objs t) (objs u)) as [o|] eqn:EL; eauto.
    pose proof (equal_leaves_kind _ _ _ _ _ _ _ E EL) as K. destruct o as [b'|b'].
    - apply IH. intros v [<-|Hv]; apply H; cbn; auto.
    - destruct K as [[]|(i & x & y & Hx & Hy & P)]. exfalso.
      destruct x as [ax|], y as [ay|]; cbn [pair_jax] in P; try discriminate.
      apply negb_true_iff, andb_false_iff in P as [P|P]; cbn in P.
      + destruct (a_class ax) eqn:EA; try discriminate.
        apply (H t); [left; auto|]. apply has_leaf_exists. exists (OArr ax).
        split; [eapply nth_error_In; eauto|exact EA].
      + destruct (a_class ay) eqn:EA; try discriminate.
        apply (H u); [right; left; auto|]. apply has_leaf_exists. exists (OArr ay).
        split; [eapply nth_error_In; eauto|exact EA].
  Qed.

  Lemma equal_rest_arr_acc t : forall ts b,
    truth (equal_rest tm rt at_ (RArr b) t ts) = true -> equal_rest tm rt at_ (RArr b) t ts = RArr true.
  Proof.
    induction ts as [|u ts IH]; intros b H; cbn [equal_rest] in *.
    - cbn in H; subst; auto.
    - destruct (treedef_eqb _ _) eqn:E; cbn [negb] in *; [|discriminate].
      apply treedef_eqb_eq, objs_length in E.
      destruct (equal_leaves tm rt at_ (RArr b) (objs t) (objs u)) as [o|] eqn:EL; [|discriminate].
      pose proof (equal_leaves_kind _ _ _ _ _ _ _ E EL) as K. destruct o as [b'|b'].
      + destruct K as [[] _].
      + auto.
  Qed.

  Lemma equal_rest_jax t u ts acc :
    has_leaf is_jax t ->
    truth (equal_rest tm rt at_ acc t (u :: ts)) = true ->
    equal_rest tm rt at_ acc t (u :: ts) = RArr true.
  Proof.
    intros HJ H. cbn [equal_rest] in *.
    destruct (treedef_eqb _ _) eqn:E; cbn [negb] in *; [|discriminate].
    apply treedef_eqb_eq, objs_length in E.
    destruct (equal_leaves tm rt at_ acc (objs t) (objs u)) as [o|] eqn:EL; [|discriminate].
    pose proof (equal_leaves_kind _ _ _ _ _ _ _ E EL) as K. destruct o as [b'|b'].
    - exfalso. destruct K as [_ K]. apply has_leaf_exists in HJ as (o & Ho & Hj).
      assert (HL : exists o', leaf_agree tm (tol_val rt) (tol_val at_) o o' /\ pair_jax o o' = false).
      { assert (T : truth (RPy b') = true).
        { apply equal_rest_spec in H; tauto. }
        destruct (proj1 (equal_leaves_truth tm rt at_ (objs t) (objs u) acc E)) as [_ F]; [eauto|].
        clear -Ho F K. revert Ho; induction F as [|x y l r HA F IH]; intros Ho; [inv Ho|].
        inv K. destruct Ho as [->|Ho]; eauto. }
      destruct HL as (o' & HA & HP). destruct o as [ao|]; [|destruct Hj].
      destruct o' as [ao'|]; [|destruct HA]. cbn in Hj, HP. rewrite Hj in HP. discriminate.
    - apply equal_rest_arr_acc; auto.
  Qed.
End Kind.
