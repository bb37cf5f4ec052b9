(** C81: functions as PyTrees. *)
From Verif Require Export Funtree_Model.
From Coq Require Import Lia ZArith.
Local Open Scope nat_scope.
Local Open Scope list_scope.

Section Funtree.
  Variable L : Type.
  Notation val := (val L). Notation heap := (heap L). Notation expr := (expr L).
  Arguments VLeaf {L} l. Arguments VNode {L} k vs. Arguments VFun {L} f d cells. Arguments VClos {L} f d contents.

  (** ** Specification *)
  (** Neither assigns to cells nor looks at types. *)
  Fixpoint pure (e : expr) : bool :=
    match e with
    | Arg _ _ | Cell _ _ | Lit _ _ | Lam _ _ _ _ => true
    | Tup _ _ es | Prim _ _ es => forallb pure es
    | Proj _ _ e => pure e
    | If _ c t f => pure c && pure t && pure f
    | App _ e es => pure e && forallb pure es
    | Assign _ _ _ | IsFun _ _ => false
    end.
  (** Contains no functions. *)
  Fixpoint data (v : val) : bool := match v with VLeaf _ => true | VNode _ vs => forallb data vs | _ => false end.
  (** Everything reached through cells is there, and there are no cycles. *)
  Inductive acyclic (h : heap) : val -> Prop :=
  | ac_leaf l : acyclic h (VLeaf l)
  | ac_node k vs : acyclics h vs -> acyclic h (VNode k vs)
  | ac_clos f d cs : acyclics h cs -> acyclic h (VClos f d cs)
  | ac_fun f d cells : acyclic_cells h cells -> acyclic h (VFun f d cells)
  with acyclics (h : heap) : list val -> Prop :=
  | acs_nil : acyclics h []
  | acs_cons v vs : acyclic h v -> acyclics h vs -> acyclics h (v :: vs)
  with acyclic_cells (h : heap) : list nat -> Prop :=
  | acc_nil : acyclic_cells h []
  | acc_cons a v cells : nth_error h a = Some (Some v) -> acyclic h v -> acyclic_cells h cells -> acyclic_cells h (a :: cells).
  (** Both run out of fuel, or raise the same, or return; data that is returned is the same. *)
  Definition same_outcome (x y : outcome L) : Prop :=
    match x, y with
    | None, None => True
    | Some (Err e), Some (Err e') => e = e'
    | Some (Ok (v, _)), Some (Ok (w, _)) => data v = true \/ data w = true -> v = w
    | _, _ => False
    end.

  (** ** Relation between original and converted values *)
  Inductive rel (h h' : heap) : val -> val -> Prop :=
  | r_leaf l : rel h h' (VLeaf l) (VLeaf l)
  | r_node k vs ws : rels h h' vs ws -> rel h h' (VNode k vs) (VNode k ws)
  | r_conv f d cells cs : rel_conv h h' cells cs -> rel h h' (VFun f d cells) (VClos f d cs)
  | r_fun f d cells cells' : rel_cells h h' cells cells' -> rel h h' (VFun f d cells) (VFun f d cells')
  | r_clos f d cs cs' : rels h h' cs cs' -> rel h h' (VClos f d cs) (VClos f d cs')
  with rels (h h' : heap) : list val -> list val -> Prop :=
  | rs_nil : rels h h' [] []
  | rs_cons v w vs ws : rel h h' v w -> rels h h' vs ws -> rels h h' (v :: vs) (w :: ws)
  with rel_conv (h h' : heap) : list nat -> list val -> Prop :=
  | rv_nil : rel_conv h h' [] []
  | rv_cons a v w cells cs : nth_error h a = Some (Some v) -> rel h h' v w -> rel_conv h h' cells cs -> rel_conv h h' (a :: cells) (w :: cs)
  with rel_cells (h h' : heap) : list nat -> list nat -> Prop :=
  | rc_nil : rel_cells h h' [] []
  | rc_cons a a' v w cells cells' : nth_error h a = Some (Some v) -> nth_error h' a' = Some (Some w) -> rel h h' v w -> rel_cells h h' cells cells' ->
      rel_cells h h' (a :: cells) (a' :: cells').
  Scheme rel_ind' := Induction for rel Sort Prop
  with rels_ind' := Induction for rels Sort Prop
  with rel_conv_ind' := Induction for rel_conv Sort Prop
  with rel_cells_ind' := Induction for rel_cells Sort Prop.
  Combined Scheme rel_mutind from rel_ind', rels_ind', rel_conv_ind', rel_cells_ind'.
  Scheme acyclic_ind' := Induction for acyclic Sort Prop
  with acyclics_ind' := Induction for acyclics Sort Prop
  with acyclic_cells_ind' := Induction for acyclic_cells Sort Prop.
  Combined Scheme acyclic_mutind from acyclic_ind', acyclics_ind', acyclic_cells_ind'.

  Definition ext (h g : heap) : Prop := forall a o, nth_error h a = Some o -> nth_error g a = Some o.
  Lemma ext_refl h : ext h h. Proof. now intros a o. Qed.
  Lemma ext_trans h g k : ext h g -> ext g k -> ext h k. Proof. intros H1 H2 a o Ha. now apply H2, H1. Qed.
  Lemma ext_app h g : ext h (h ++ g).
  Proof. intros a o Ha. rewrite nth_error_app1; [ exact Ha | ]. apply nth_error_Some. congruence. Qed.
  Lemma rel_mono h h' g g' : ext h g -> ext h' g' ->
    (forall v w, rel h h' v w -> rel g g' v w) /\ (forall vs ws, rels h h' vs ws -> rels g g' vs ws) /\
    (forall c cs, rel_conv h h' c cs -> rel_conv g g' c cs) /\ (forall c c', rel_cells h h' c c' -> rel_cells g g' c c').
  Proof.
    intros E E'. apply (rel_mutind h h' (fun v w _ => rel g g' v w) (fun vs ws _ => rels g g' vs ws) (fun c cs _ => rel_conv g g' c cs) (fun c c' _ => rel_cells g g' c c'));
      intros; try (constructor; assumption).
    - econstructor; [ apply E; eassumption | assumption | assumption ].
    - econstructor; [ apply E; eassumption | apply E'; eassumption | assumption | assumption ].
  Qed.
  Lemma rel_data h h' : (forall v w, rel h h' v w -> data v = true \/ data w = true -> v = w) /\
    (forall vs ws, rels h h' vs ws -> forallb data vs = true \/ forallb data ws = true -> vs = ws).
  Proof.
    pose proof (rel_mutind h h' (fun v w _ => data v = true \/ data w = true -> v = w) (fun vs ws _ => forallb data vs = true \/ forallb data ws = true -> vs = ws)
      (fun _ _ _ => True) (fun _ _ _ => True)) as M.
    refine ((fun K => conj (proj1 K) (proj1 (proj2 K))) (M _ _ _ _ _ _ _ _ _ _ _)); cbn [data forallb]; intros; try exact I; try reflexivity.
    all: try (match goal with Q : false = true \/ _ |- _ => destruct Q; discriminate end).
    - f_equal. auto.
    - match goal with Q : _ && _ = true \/ _ |- _ => rewrite !Bool.andb_true_iff in Q; f_equal; tauto end.
  Qed.
  Lemma acyclic_rel h : (forall v, acyclic h v -> rel h h v v) /\ (forall vs, acyclics h vs -> rels h h vs vs) /\ (forall c, acyclic_cells h c -> rel_cells h h c c).
  Proof.
    apply (acyclic_mutind h (fun v _ => rel h h v v) (fun vs _ => rels h h vs vs) (fun c _ => rel_cells h h c c)); intros; try (constructor; assumption).
    econstructor; eassumption.
  Qed.
  Lemma rels_nth h h' vs ws i : rels h h' vs ws -> match nth_error vs i, nth_error ws i with
    | Some v, Some w => rel h h' v w | None, None => True | _, _ => False end.
  Proof. intro H. revert i. induction H as [ | v w vs ws Hv Hs IH ]; intros [ | i ]; cbn; auto. apply IH. Qed.
  Lemma rel_cells_nth h h' c c' i : rel_cells h h' c c' -> match nth_error c i, nth_error c' i with
    | Some a, Some a' => exists v w, nth_error h a = Some (Some v) /\ nth_error h' a' = Some (Some w) /\ rel h h' v w
    | None, None => True | _, _ => False end.
  Proof. intro H. revert i. induction H as [ | a a' v w c c' H1 H2 Hv Hs IH ]; intros [ | i ]; cbn; auto; [ now exists v, w | apply IH ]. Qed.
  Lemma rels_length h h' vs ws : rels h h' vs ws -> length vs = length ws.
  Proof. induction 1; cbn; congruence. Qed.
  Lemma rels_app h h' a b c d : rels h h' a b -> rels h h' c d -> rels h h' (a ++ c) (b ++ d).
  Proof. intros H1 H2. induction H1; cbn; [ exact H2 | now constructor ]. Qed.
  Lemma rels_leaves h h' ls : rels h h' (map VLeaf ls) (map VLeaf ls).
  Proof. induction ls; cbn; constructor; [ constructor | assumption ]. Qed.
  Lemma rels_to_leaves h h' vs ws : rels h h' vs ws -> to_leaves L vs = to_leaves L ws.
  Proof. induction 1 as [ | v w vs ws Hv Hs IH ]; cbn; [ reflexivity | ]. inversion Hv; subst; try reflexivity. now rewrite IH. Qed.

  (** New cells for the contents. *)
  Lemma nth_new (h : heap) cs i : nth_error (h ++ map Some cs) (length h + i) = match nth_error cs i with Some v => Some (Some v) | None => None end.
  Proof. rewrite nth_error_app2 by lia. replace (length h + i - length h) with i by lia. rewrite nth_error_map. now destruct (nth_error cs i). Qed.
  Lemma conv_cells h h' cells cs : rel_conv h h' cells cs -> rel_cells h (h' ++ map Some cs) cells (seq (length h') (length cs)).
  Proof.
    intro H. assert (G : forall k pre, k = length pre -> rel_cells h (h' ++ map Some (pre ++ cs)) cells (seq (length h' + k) (length cs))).
    { induction H as [ | a v w cells cs H1 Hv Hs IH ]; intros k pre Hk; cbn [length seq]; [ constructor | ].
      apply (rc_cons _ _ a (length h' + k) v w).
      - exact H1.
      - rewrite nth_new, nth_error_app2 by lia. replace (k - length pre) with 0 by lia. reflexivity.
      - apply (proj1 (rel_mono h h' h (h' ++ map Some (pre ++ w :: cs)) (ext_refl h) (ext_app _ _))). exact Hv.
      - replace (S (length h' + k)) with (length h' + S k) by lia. replace (pre ++ w :: cs) with ((pre ++ [w]) ++ cs) by (now rewrite <- app_assoc).
        apply IH. rewrite app_length. cbn. lia. }
    specialize (G 0 [] eq_refl). now rewrite Nat.add_0_r in G.
  Qed.
  Lemma clos_cells h h' cs cs' : rels h h' cs cs' ->
    rel_cells (h ++ map Some cs) (h' ++ map Some cs') (seq (length h) (length cs)) (seq (length h') (length cs')).
  Proof.
    intro H. assert (G : forall k pre pre', k = length pre -> k = length pre' ->
      rel_cells (h ++ map Some (pre ++ cs)) (h' ++ map Some (pre' ++ cs')) (seq (length h + k) (length cs)) (seq (length h' + k) (length cs'))).
    { induction H as [ | v w cs cs' Hv Hs IH ]; intros k pre pre' Hk Hk'; cbn [length seq]; [ constructor | ].
      apply (rc_cons _ _ (length h + k) (length h' + k) v w).
      - rewrite nth_new, nth_error_app2 by lia. replace (k - length pre) with 0 by lia. reflexivity.
      - rewrite nth_new, nth_error_app2 by lia. replace (k - length pre') with 0 by lia. reflexivity.
      - apply (proj1 (rel_mono h h' _ _ (ext_app _ _) (ext_app _ _))). exact Hv.
      - replace (S (length h + k)) with (length h + S k) by lia. replace (S (length h' + k)) with (length h' + S k) by lia.
        replace (pre ++ v :: cs) with ((pre ++ [v]) ++ cs) by (now rewrite <- app_assoc).
        replace (pre' ++ w :: cs') with ((pre' ++ [w]) ++ cs') by (now rewrite <- app_assoc).
        apply IH; rewrite app_length; cbn; lia. }
    specialize (G 0 [] [] eq_refl eq_refl). now rewrite !Nat.add_0_r in G.
  Qed.

  (** ** Simulation *)
  Definition sim {A} (P : heap -> heap -> A -> A -> Prop) (h h' : heap) (x y : option (res (A * heap))) : Prop :=
    match x, y with
    | None, None => True
    | Some (Err e), Some (Err e') => e = e'
    | Some (Ok (v, g)), Some (Ok (w, g')) => ext h g /\ ext h' g' /\ P g g' v w
    | _, _ => False
    end.
  Lemma sim_bind {A B} (P : heap -> heap -> A -> A -> Prop) (Q : heap -> heap -> B -> B -> Prop) h h' x y f f' :
    sim P h h' x y -> (forall v w g g', ext h g -> ext h' g' -> P g g' v w -> sim Q g g' (f v g) (f' w g')) ->
    sim Q h h' (obind L x f) (obind L y f').
  Proof.
    intros H K. destruct x as [ [ [v g] | e ] | ], y as [ [ [w g'] | e' ] | ]; cbn in H |- *; try contradiction; auto.
    destruct H as (E & E' & HP). specialize (K v w g g' E E' HP). unfold sim in *.
    destruct (f v g) as [ [ [a k] | ? ] | ], (f' w g') as [ [ [a' k'] | ? ] | ]; try contradiction; auto.
    destruct K as (E1 & E2 & K). repeat split; [ now apply (ext_trans h g) | now apply (ext_trans h' g') | exact K ].
  Qed.
  Lemma sim_each (ev ev' : heap -> expr -> outcome L) es : (forall e, In e es -> pure e = true) -> forall h h',
    (forall e g g', In e es -> ext h g -> ext h' g' -> sim rel g g' (ev g e) (ev' g' e)) ->
    sim rels h h' (each L ev h es) (each L ev' h' es).
  Proof.
    induction es as [ | e es IH ]; intros Hp h h' H; cbn [each].
    - cbn. repeat split; [ apply ext_refl | apply ext_refl | constructor ].
    - apply (sim_bind rel rels); [ apply H; [ now left | apply ext_refl | apply ext_refl ] | ]. intros v w g g' E E' Hv.
      apply (sim_bind rels rels).
      + apply IH; [ intros e' He'; apply Hp; now right | ]. intros e' k k' He' Ek Ek'. apply H; [ now right | now apply (ext_trans h g) | now apply (ext_trans h' g') ].
      + intros vs ws k k' Ek Ek' Hs. cbn. repeat split; [ apply ext_refl | apply ext_refl | ]. constructor; [ | exact Hs ].
        apply (proj1 (rel_mono g g' k k' Ek Ek')). exact Hv.
  Qed.

  Variables (params : nat -> nat) (body : nat -> expr) (prim : nat -> list L -> res L) (truth : L -> bool) (of_bool : bool -> L).
  Notation eval := (eval L params body prim truth of_bool).
  Hypothesis pure_program : forall f, pure (body f) = true.

  Lemma fill_rel h h' n d args args' : rels h h' args args' ->
    match fill L n d args, fill L n d args' with Ok a, Ok a' => rels h h' a a' | Err e, Err e' => e = e' | _, _ => False end.
  Proof.
    intro H. unfold fill. rewrite <- (rels_length _ _ _ _ H). destruct (Nat.ltb n (length args)); [ reflexivity | ].
    destruct (Nat.ltb (length d) (n - length args)); [ reflexivity | ]. apply rels_app; [ exact H | apply rels_leaves ].
  Qed.
  Lemma capture_rel h h' cells cells' args args' caps : rel_cells h h' cells cells' -> rels h h' args args' ->
    sim rel_cells h h' (Some (capture_all L h cells args caps)) (Some (capture_all L h' cells' args' caps)).
  Proof.
    revert h h'. induction caps as [ | [ i | i ] caps IH ]; intros h h' Hc Ha; cbn [capture_all].
    - cbn. repeat split; [ apply ext_refl | apply ext_refl | constructor ].
    - pose proof (rel_cells_nth _ _ _ _ i Hc) as N. destruct (nth_error cells i) as [ a | ], (nth_error cells' i) as [ a' | ]; try contradiction; [ | reflexivity ].
      destruct N as (v & w & H1 & H2 & Hv). specialize (IH h h' Hc Ha).
      destruct (capture_all L h cells args caps) as [ [l g] | e ], (capture_all L h' cells' args' caps) as [ [l' g'] | e' ]; cbn in IH |- *; try contradiction; [ | exact IH ].
      destruct IH as (E & E' & Hl). repeat split; try assumption.
      apply (rc_cons _ _ a a' v w); [ now apply E | now apply E' | apply (proj1 (rel_mono h h' g g' E E')); exact Hv | exact Hl ].
    - pose proof (rels_nth _ _ _ _ i Ha) as N. destruct (nth_error args i) as [ v | ], (nth_error args' i) as [ w | ]; try contradiction; [ | reflexivity ].
      destruct (rel_mono h h' (h ++ [Some v]) (h' ++ [Some w]) (ext_app _ _) (ext_app _ _)) as (M1 & M2 & _ & M4).
      specialize (IH (h ++ [Some v]) (h' ++ [Some w]) (M4 _ _ Hc) (M2 _ _ Ha)).
      destruct (capture_all L (h ++ [Some v]) cells args caps) as [ [l g] | e ], (capture_all L (h' ++ [Some w]) cells' args' caps) as [ [l' g'] | e' ];
        cbn in IH |- *; try contradiction; [ | exact IH ].
      destruct IH as (E & E' & Hl). repeat split.
      + apply (ext_trans _ _ _ (ext_app _ _) E).
      + apply (ext_trans _ _ _ (ext_app _ _) E').
      + apply (rc_cons _ _ (length h) (length h') v w); [ apply E | apply E' | | exact Hl ].
        * rewrite nth_error_app2, Nat.sub_diag by lia. reflexivity.
        * rewrite nth_error_app2, Nat.sub_diag by lia. reflexivity.
        * apply (proj1 (rel_mono _ _ g g' E E')). now apply M1.
  Qed.
  Lemma sim_eval n : forall h h' cells cells' args args' e, pure e = true -> rel_cells h h' cells cells' -> rels h h' args args' ->
    sim rel h h' (eval n h cells args e) (eval n h' cells' args' e).
  Proof.
    induction n as [ | n IH ]; intros h h' cells cells' args args' e Hp Hc Ha; [ exact I | ].
    assert (IHx : forall g g' e, pure e = true -> ext h g -> ext h' g' -> sim rel g g' (eval n g cells args e) (eval n g' cells' args' e)).
    { intros g g' e' He' Eg Eg'. destruct (rel_mono h h' g g' Eg Eg') as (_ & M2 & _ & M4). apply IH; [ exact He' | now apply M4 | now apply M2 ]. }
    assert (IHs : forall g g' es, forallb pure es = true -> ext h g -> ext h' g' ->
      sim rels g g' (each L (fun h e => eval n h cells args e) g es) (each L (fun h e => eval n h cells' args' e) g' es)).
    { intros g g' es Hes Eg Eg'. rewrite forallb_forall in Hes. apply sim_each; [ exact Hes | ]. intros e' k k' He' Ek Ek'.
      apply IHx; [ now apply Hes | now apply (ext_trans h g) | now apply (ext_trans h' g') ]. }
    destruct e as [ i | i | l | k es | i e | op es | c t f | e es | f d caps | i e | e ]; cbn [Funtree_Model.eval pure] in *.
    - pose proof (rels_nth _ _ _ _ i Ha) as N. destruct (nth_error args i), (nth_error args' i); cbn; try contradiction; [ | reflexivity ].
      repeat split; [ apply ext_refl | apply ext_refl | exact N ].
    - pose proof (rel_cells_nth _ _ _ _ i Hc) as N. destruct (nth_error cells i), (nth_error cells' i); cbn; try contradiction; [ | reflexivity ].
      destruct N as (v & w & -> & -> & Hv). repeat split; [ apply ext_refl | apply ext_refl | exact Hv ].
    - cbn. repeat split; [ apply ext_refl | apply ext_refl | constructor ].
    - apply (sim_bind rels rel); [ apply IHs; [ exact Hp | apply ext_refl | apply ext_refl ] | ]. intros vs ws g g' _ _ Hs. cbn.
      repeat split; [ apply ext_refl | apply ext_refl | now constructor ].
    - apply (sim_bind rel rel); [ apply IHx; [ exact Hp | apply ext_refl | apply ext_refl ] | ]. intros v w g g' _ _ Hv.
      inversion Hv as [ | k vs ws Hs | | | ]; subst; cbn; try reflexivity.
      pose proof (rels_nth _ _ _ _ i Hs) as N. destruct (nth_error vs i), (nth_error ws i); cbn; try contradiction; [ | reflexivity ].
      repeat split; [ apply ext_refl | apply ext_refl | exact N ].
    - apply (sim_bind rels rel); [ apply IHs; [ exact Hp | apply ext_refl | apply ext_refl ] | ]. intros vs ws g g' _ _ Hs.
      rewrite <- (rels_to_leaves _ _ _ _ Hs). destruct (to_leaves L vs) as [ ls | e ]; cbn; [ | reflexivity ]. destruct (prim op ls); cbn; [ | reflexivity ].
      repeat split; [ apply ext_refl | apply ext_refl | constructor ].
    - apply Bool.andb_true_iff in Hp as [Hp Hf]. apply Bool.andb_true_iff in Hp as [Hp Ht].
      apply (sim_bind rel rel); [ apply IHx; [ exact Hp | apply ext_refl | apply ext_refl ] | ]. intros v w g g' Eg Eg' Hv.
      inversion Hv; subst; try reflexivity. destruct (truth l); apply IHx; assumption.
    - apply Bool.andb_true_iff in Hp as [Hp Hps].
      apply (sim_bind rel rel); [ apply IHx; [ exact Hp | apply ext_refl | apply ext_refl ] | ]. intros v w g g' Eg Eg' Hv.
      apply (sim_bind rels rel); [ apply IHs; assumption | ]. intros vs ws k k' Ek Ek' Hs.
      destruct (rel_mono g g' k k' Ek Ek') as (M1 & _). apply M1 in Hv. clear M1.
      inversion Hv as [ | | f d cells0 cs Hcv | f d cells0 cells1 Hcc | f d cs cs' Hcs ]; subst; cbn [call]; try reflexivity.
      + pose proof (fill_rel k k' (params f) d vs ws Hs) as F. destruct (fill L (params f) d vs) as [ a | ], (fill L (params f) d ws) as [ a' | ]; try contradiction; [ | exact F ].
        assert (S := IH k (k' ++ map Some cs) cells0 (seq (length k') (length cs)) a a' (body f) (pure_program f) (conv_cells _ _ _ _ Hcv)
          (proj1 (proj2 (rel_mono k k' k (k' ++ map Some cs) (ext_refl k) (ext_app _ _))) _ _ F)).
        unfold sim in *. destruct (eval n k _ _ _) as [ [ [? ?] | ? ] | ], (eval n (k' ++ _) _ _ _) as [ [ [? ?] | ? ] | ]; try contradiction; auto.
        destruct S as (S1 & S2 & S3). repeat split; try assumption. apply (ext_trans _ _ _ (ext_app _ _) S2).
      + pose proof (fill_rel k k' (params f) d vs ws Hs) as F. destruct (fill L (params f) d vs) as [ a | ], (fill L (params f) d ws) as [ a' | ]; try contradiction; [ | exact F ].
        apply IH; [ apply pure_program | exact Hcc | exact F ].
      + pose proof (fill_rel k k' (params f) d vs ws Hs) as F. destruct (fill L (params f) d vs) as [ a | ], (fill L (params f) d ws) as [ a' | ]; try contradiction; [ | exact F ].
        assert (S := IH (k ++ map Some cs) (k' ++ map Some cs') (seq (length k) (length cs)) (seq (length k') (length cs')) a a' (body f) (pure_program f) (clos_cells _ _ _ _ Hcs)
          (proj1 (proj2 (rel_mono k k' (k ++ map Some cs) (k' ++ map Some cs') (ext_app _ _) (ext_app _ _))) _ _ F)).
        unfold sim in *. destruct (eval n (k ++ _) _ _ _) as [ [ [? ?] | ? ] | ], (eval n (k' ++ _) _ _ _) as [ [ [? ?] | ? ] | ]; try contradiction; auto.
        destruct S as (S1 & S2 & S3). repeat split; try assumption; eapply ext_trans; try apply ext_app; eassumption.
    - pose proof (capture_rel h h' cells cells' args args' caps Hc Ha) as C. unfold sim in C.
      destruct (capture_all L h cells args caps) as [ [l g] | e ], (capture_all L h' cells' args' caps) as [ [l' g'] | e' ]; cbn; try contradiction; [ | exact C ].
      destruct C as (E & E' & Hl). repeat split; try assumption. now constructor.
    - discriminate.
    - discriminate.
  Qed.

  (** ** Conversion *)
  Lemma omapR_ok {A B} (f : A -> option (res B)) l ys : omapR f l = Some (Ok ys) <-> Forall2 (fun x y => f x = Some (Ok y)) l ys.
  Proof.
    revert ys. induction l as [ | x l IH ]; intro ys; cbn.
    - split; [ intros [= <-]; constructor | inversion 1; reflexivity ].
    - split.
      + destruct (f x) as [ [ y | e ] | ] eqn:E; try discriminate. destruct (omapR f l) as [ [ ys' | e ] | ]; try discriminate. intros [= <-]. constructor; [ exact E | now apply IH ].
      + inversion 1 as [ | ? y ? ys' H1 H2 ]; subst. rewrite H1. now rewrite (proj2 (IH ys') H2).
  Qed.
  Lemma to_pytree_inv n h v w : to_pytree L (S n) h v = Some (Ok w) ->
    match v with
    | VLeaf l => w = VLeaf l
    | VNode k vs => exists ws, w = VNode k ws /\ Forall2 (fun v w => to_pytree L n h v = Some (Ok w)) vs ws
    | VClos f d cs => exists ws, w = VClos f d ws /\ Forall2 (fun v w => to_pytree L n h v = Some (Ok w)) cs ws
    | VFun f d cells => exists ws, w = VClos f d ws /\
        Forall2 (fun a w => exists v, nth_error h a = Some (Some v) /\ to_pytree L n h v = Some (Ok w)) cells ws
    end.
  Proof.
    destruct v as [ l | k vs | f d cells | f d cs ]; cbn [to_pytree].
    - intros [= <-]. reflexivity.
    - destruct (omapR _ vs) as [ [ ws | e ] | ] eqn:E; cbn; try discriminate. intros [= <-]. exists ws. split; [ reflexivity | now apply omapR_ok ].
    - destruct (omapR _ cells) as [ [ ws | e ] | ] eqn:E; cbn; try discriminate. intros [= <-]. exists ws. split; [ reflexivity | ]. apply omapR_ok in E.
      induction E as [ | a w cells ws H E IH ]; constructor; [ | exact IH ]. destruct (nth_error h a) as [ [ v | ] | ]; try discriminate. now exists v.
    - destruct (omapR _ cs) as [ [ ws | e ] | ] eqn:E; cbn; try discriminate. intros [= <-]. exists ws. split; [ reflexivity | now apply omapR_ok ].
  Qed.
  Lemma to_pytree_rel n : forall h v w, to_pytree L n h v = Some (Ok w) -> rel h h v w.
  Proof.
    induction n as [ | n IH ]; intros h v w E; [ discriminate | ]. apply to_pytree_inv in E. destruct v as [ l | k vs | f d cells | f d cs ].
    - subst w. constructor.
    - destruct E as (ws & -> & E). constructor. induction E; constructor; auto.
    - destruct E as (ws & -> & E). constructor. induction E as [ | a w cells ws (v & H1 & H2) E IHE ]; [ constructor | ]. apply (rv_cons _ _ a v w); auto.
    - destruct E as (ws & -> & E). constructor. induction E; constructor; auto.
  Qed.

  (** No program, other than by assigning to cells or looking at types, can tell a converted value from the original: calling it, or doing anything else with it,
      gives the same data or exception, or does not return. *)
  Theorem C81_context : forall n h v w args e fuel, to_pytree L n h v = Some (Ok w) -> (forall a, In a args -> acyclic h a) -> pure e = true ->
    same_outcome (eval fuel h [] (v :: args) e) (eval fuel h [] (w :: args) e).
  Proof.
    intros n h v w args e fuel E Ha Hp. pose proof (sim_eval fuel h h [] [] (v :: args) (w :: args) e Hp (rc_nil h h)) as S.
    assert (Hs : rels h h (v :: args) (w :: args)).
    { constructor; [ now apply (to_pytree_rel n) | ]. apply (proj1 (proj2 (acyclic_rel h))). clear -Ha. induction args as [ | a args IH ]; constructor.
      - apply Ha. now left.
      - apply IH. intros b Hb. apply Ha. now right. }
    specialize (S Hs). unfold sim in S. unfold same_outcome. destruct (eval fuel h [] (v :: args) e) as [ [ [a g] | ? ] | ], (eval fuel h [] (w :: args) e) as [ [ [b g'] | ? ] | ]; try contradiction; auto.
    destruct S as (_ & _ & S). exact (proj1 (rel_data g g') a b S).
  Qed.

  (** Conversion succeeds exactly if there are neither cycles nor empty cells. *)
  Lemma omapR_mono {A B} (f g : A -> option (res B)) l r : (forall x r, In x l -> f x = Some r -> g x = Some r) -> omapR f l = Some r -> omapR g l = Some r.
  Proof.
    revert r. induction l as [ | x l IH ]; intros r H; cbn; [ trivial | ]. destruct (f x) as [ [ y | e ] | ] eqn:E; [ | | discriminate ].
    - rewrite (H x _ (or_introl eq_refl) E). destruct (omapR f l) as [ r' | ] eqn:E'; [ | discriminate ].
      rewrite (IH r' (fun x r Hx => H x r (or_intror Hx)) eq_refl). trivial.
    - rewrite (H x _ (or_introl eq_refl) E). trivial.
  Qed.
  Lemma to_pytree_mono n : forall m h v r, n <= m -> to_pytree L n h v = Some r -> to_pytree L m h v = Some r.
  Proof.
    induction n as [ | n IH ]; intros [ | m ] h v r Hm E; try discriminate; [ lia | ]. cbn [to_pytree] in *.
    assert (M : forall x r, to_pytree L n h x = Some r -> to_pytree L m h x = Some r) by (intros x r'; apply IH; lia).
    destruct v as [ l | k vs | f d cells | f d cs ].
    - exact E.
    - destruct (omapR _ vs) as [ r' | ] eqn:E'; [ | discriminate ]. rewrite (omapR_mono _ _ vs r' (fun x r _ => M x r) E'). exact E.
    - destruct (omapR _ cells) as [ r' | ] eqn:E'; [ | discriminate ]. erewrite (omapR_mono _ _ cells r'); [ exact E | | exact E' ].
      intros a r'' _. cbn. destruct (nth_error h a) as [ [ v | ] | ]; auto.
    - destruct (omapR _ cs) as [ r' | ] eqn:E'; [ | discriminate ]. rewrite (omapR_mono _ _ cs r' (fun x r _ => M x r) E'). exact E.
  Qed.
  Lemma Forall2_mono {A B} (P Q : A -> B -> Prop) l m : (forall x y, P x y -> Q x y) -> Forall2 P l m -> Forall2 Q l m.
  Proof. induction 2; constructor; auto. Qed.
  Theorem C81_terminates : forall h v, (exists n w, to_pytree L n h v = Some (Ok w)) <-> acyclic h v.
  Proof.
    intros h v. split.
    - intros (n & w & E). revert v w E. induction n as [ | n IH ]; intros v w E; [ discriminate | ]. apply to_pytree_inv in E. destruct v as [ l | k vs | f d cells | f d cs ].
      + constructor.
      + destruct E as (ws & -> & E). constructor. induction E; constructor; eauto.
      + destruct E as (ws & -> & E). constructor. induction E as [ | a w cells ws (v & H1 & H2) E IHE ]; [ constructor | ]. econstructor; eauto.
      + destruct E as (ws & -> & E). constructor. induction E; constructor; eauto.
    - intro H. revert v H. pose proof (acyclic_mutind h (fun v _ => exists n w, to_pytree L n h v = Some (Ok w))
        (fun vs _ => exists n ws, Forall2 (fun v w => to_pytree L n h v = Some (Ok w)) vs ws)
        (fun cells _ => exists n ws, Forall2 (fun a w => exists v, nth_error h a = Some (Some v) /\ to_pytree L n h v = Some (Ok w)) cells ws)) as M.
      refine (proj1 (M _ _ _ _ _ _ _ _)); clear M.
      + intro l. exists 1, (VLeaf l). reflexivity.
      + intros k vs _ (n & ws & E). exists (S n), (VNode k ws). cbn [to_pytree]. now rewrite (proj2 (omapR_ok _ vs ws) E).
      + intros f d cs _ (n & ws & E). exists (S n), (VClos f d ws). cbn [to_pytree]. now rewrite (proj2 (omapR_ok _ cs ws) E).
      + intros f d cells _ (n & ws & E). exists (S n), (VClos f d ws). cbn [to_pytree]. erewrite (proj2 (omapR_ok _ cells ws)); [ reflexivity | ].
        refine (Forall2_mono _ _ _ _ _ E). intros a w (v & -> & Hv). exact Hv.
      + exists 0, []. constructor.
      + intros v vs _ (n & w & E) _ (m & ws & Es). exists (n + m), (w :: ws). constructor.
        * apply (to_pytree_mono n (n + m)); [ lia | exact E ].
        * refine (Forall2_mono _ _ _ _ _ Es). intros x y. apply (to_pytree_mono m (n + m)). lia.
      + exists 0, []. constructor.
      + intros a v cells Hv _ (n & w & E) _ (m & ws & Es). exists (n + m), (w :: ws). constructor.
        * exists v. split; [ exact Hv | ]. apply (to_pytree_mono n (n + m)); [ lia | exact E ].
        * refine (Forall2_mono _ _ _ _ _ Es). intros x y (z & H1 & H2). exists z. split; [ exact H1 | ]. apply (to_pytree_mono m (n + m)); [ lia | exact H2 ].
  Qed.

  (** What comes out has no functions left, hence shows all that was captured; converting again, at any later time, changes nothing. *)
  Fixpoint no_functions (v : val) : bool :=
    match v with VLeaf _ => true | VNode _ vs => forallb no_functions vs | VFun _ _ _ => false | VClos _ _ cs => forallb no_functions cs end.
  Theorem C81_result : forall n h v w, to_pytree L n h v = Some (Ok w) -> no_functions w = true /\ forall h', to_pytree L n h' w = Some (Ok w).
  Proof.
    induction n as [ | n IH ]; intros h v w E; [ discriminate | ]. apply to_pytree_inv in E.
    assert (K : forall A (P : A -> val -> Prop) (l : list A) ws, (forall x w, P x w -> no_functions w = true /\ forall h', to_pytree L n h' w = Some (Ok w)) ->
      Forall2 P l ws -> forallb no_functions ws = true /\ forall h', omapR (to_pytree L n h') ws = Some (Ok ws)).
    { intros A P l ws HP F. split.
      - induction F as [ | x y l ws Hx F IHF ]; cbn; [ reflexivity | ]. now rewrite (proj1 (HP x y Hx)).
      - intro h'. apply omapR_ok. induction F as [ | x y l ws Hx F IHF ]; constructor; [ | exact IHF ]. apply (proj2 (HP x y Hx)). }
    destruct v as [ l | k vs | f d cells | f d cs ].
    - subst w. split; reflexivity.
    - destruct E as (ws & -> & E). destruct (K _ _ _ _ (fun x w => IH h x w) E) as [K1 K2]. split; [ exact K1 | ]. intro h'. cbn [to_pytree]. now rewrite K2.
    - destruct E as (ws & -> & E). destruct (K _ _ _ _ (fun a w (Hx : exists v, nth_error h a = Some (Some v) /\ to_pytree L n h v = Some (Ok w)) =>
        match Hx with ex_intro _ v (conj _ Hv) => IH h v w Hv end) E) as [K1 K2]. split; [ exact K1 | ]. intro h'. cbn [to_pytree]. now rewrite K2.
    - destruct E as (ws & -> & E). destruct (K _ _ _ _ (fun x w => IH h x w) E) as [K1 K2]. split; [ exact K1 | ]. intro h'. cbn [to_pytree]. now rewrite K2.
  Qed.

  (** Converted values that compare equal are equal, if functions with the same qualified name, module and source have the same code and defaults. *)
  Theorem C81_equal : forall I (information : nat -> I) i_eqb l_eqb v w,
    (forall a b, l_eqb a b = true -> a = b) ->
    (forall f d g d', In (LFun L f d) (tree_leaves L v) -> In (LFun L g d') (tree_leaves L w) -> i_eqb (information f) (information g) = true -> f = g /\ d = d') ->
    same L I information i_eqb l_eqb v w = true -> v = w.
  Proof.
    intros I information i_eqb l_eqb v w Hl. revert v w.
    set (all := fix all (vs ws : list val) : bool :=
      match vs, ws with [], [] => true | v :: vs', w :: ws' => same L I information i_eqb l_eqb v w && all vs' ws' | _, _ => false end).
    fix IH 1. intros v w. destruct v as [ l | k vs | f d cells | f d cs ]; destruct w as [ l' | k' vs' | f' d' cells' | f' d' cs' ]; intros Hf E; try discriminate.
    - cbn in E. now rewrite (Hl _ _ E).
    - cbn [same] in E. apply Bool.andb_true_iff in E as [E1 E2]. apply Nat.eqb_eq in E1. subst k'. f_equal. cbn [tree_leaves] in Hf. revert vs' Hf E2.
      induction vs as [ | v vs IHs ]; intros [ | w ws ] Hf E2; try discriminate; [ reflexivity | ]. apply Bool.andb_true_iff in E2 as [E2 E3]. f_equal.
      + apply IH; [ | exact E2 ]. intros f d g d' H1 H2. apply Hf; cbn [flat_map]; apply in_or_app; now left.
      + apply IHs; [ | exact E3 ]. intros f d g d' H1 H2. apply Hf; cbn [flat_map]; apply in_or_app; now right.
    - cbn [same] in E. apply Bool.andb_true_iff in E as [E1 E2]. destruct (Hf f d f' d' (or_introl eq_refl) (or_introl eq_refl) E1) as [<- <-]. f_equal.
      assert (Hf' : forall g e g' e', In (LFun L g e) (flat_map (tree_leaves L) cs) -> In (LFun L g' e') (flat_map (tree_leaves L) cs') ->
        i_eqb (information g) (information g') = true -> g = g' /\ e = e') by (intros g e g' e' H1 H2; apply Hf; now right).
      clear Hf. revert cs' Hf' E2.
      induction cs as [ | v vs IHs ]; intros [ | w ws ] Hf E2; try discriminate; [ reflexivity | ]. apply Bool.andb_true_iff in E2 as [E2 E3]. f_equal.
      + apply IH; [ | exact E2 ]. intros f0 d0 g d' H1 H2. apply Hf; cbn [flat_map]; apply in_or_app; now left.
      + apply IHs; [ | exact E3 ]. intros f0 d0 g d' H1 H2. apply Hf; cbn [flat_map]; apply in_or_app; now right.
  Qed.
End Funtree.
Print Assumptions C81_context.
Print Assumptions C81_terminates.
Print Assumptions C81_result.
Print Assumptions C81_equal.

(** *** What programs can tell, over integers *)
Definition ev := eval Z (fun _ => 0).
Definition padd (op : nat) (l : list Z) : res Z := Ok (fold_right Z.add 0%Z l).
Definition ztruth (z : Z) : bool := negb (Z.eqb z 0).
Definition zbool (b : bool) : Z := if b then 1%Z else 0%Z.
(** Assignments to captured variables are forgotten after every call: a counter counts only once. *)
Theorem C81_nonlocal_refuted : exists body e h v w g g' n, to_pytree Z n h v = Some (Ok w) /\ acyclic Z h v /\
  ev body padd ztruth zbool 10 h [] [v] e = Some (Ok (VNode Z 0 [VLeaf Z 1%Z; VLeaf Z 2%Z], g)) /\
  ev body padd ztruth zbool 10 h [] [w] e = Some (Ok (VNode Z 0 [VLeaf Z 1%Z; VLeaf Z 1%Z], g')).
Proof.
  exists (fun _ => Assign Z 0 (Prim Z 0 [Cell Z 0; Lit Z 1%Z])), (Tup Z 0 [App Z (Arg Z 0) []; App Z (Arg Z 0) []]), [Some (VLeaf Z 0%Z)], (VFun Z 0 [] [0]).
  do 3 eexists. exists 2. split; [ reflexivity | ]. split; [ | split; reflexivity ].
  repeat econstructor.
Qed.
Print Assumptions C81_nonlocal_refuted.
(** A converted function is no [types.FunctionType]. *)
Theorem C81_isinstance_refuted : exists body e h v w n, to_pytree Z n h v = Some (Ok w) /\
  ev body padd ztruth zbool 10 h [] [v] e = Some (Ok (VLeaf Z 1%Z, h)) /\ ev body padd ztruth zbool 10 h [] [w] e = Some (Ok (VLeaf Z 0%Z, h)).
Proof.
  exists (fun _ => Lit Z 0%Z), (IsFun Z (Arg Z 0)), [], (VFun Z 0 [] []). eexists. exists 1. repeat split; reflexivity.
Qed.
Print Assumptions C81_isinstance_refuted.
(** A local function that refers to itself cannot be converted. *)
Theorem C81_recursive_refuted : forall L f d n, to_pytree L n [Some (VFun L f d [0])] (VFun L f d [0]) = None.
Proof. intros L f d n. induction n as [ | n IH ]; [ reflexivity | ]. cbn [to_pytree omapR nth_error]. now rewrite IH. Qed.
Print Assumptions C81_recursive_refuted.
(** Functions made by one [def] with different defaults compare equal, and give different results: the premise on defaults above is needed. *)
Theorem C81_defaults_refuted : exists body h v w n v' w' e,
  to_pytree Z n h v = Some (Ok v') /\ to_pytree Z n h w = Some (Ok w') /\
  same Z nat (fun f => f) Nat.eqb Z.eqb v' w' = true /\
  eval Z (fun _ => 1) body padd ztruth zbool 10 h [] [v'] e = Some (Ok (VLeaf Z 1%Z, h)) /\
  eval Z (fun _ => 1) body padd ztruth zbool 10 h [] [w'] e = Some (Ok (VLeaf Z 2%Z, h)).
Proof.
  exists (fun _ => Arg Z 0), [], (VFun Z 0 [1%Z] []), (VFun Z 0 [2%Z] []), 1. do 2 eexists. exists (App Z (Arg Z 0) []). repeat split; reflexivity.
Qed.
Print Assumptions C81_defaults_refuted.

(** The language: a conditional takes its first branch if the condition is truthy. *)
Theorem C81_conditional : forall L params body prim truth of_bool n h cells args c (t f : expr L) l h',
  eval L params body prim truth of_bool n h cells args c = Some (Ok (VLeaf L l, h')) ->
  eval L params body prim truth of_bool (S n) h cells args (If L c t f) = eval L params body prim truth of_bool n h' cells args (if truth l then t else f).
Proof. intros L params body prim truth of_bool n h cells args c t f l h' H. cbn [eval]. rewrite H. cbn [obind]. destruct (truth l); reflexivity. Qed.
Print Assumptions C81_conditional.
(** An assignment to a captured variable changes its cell, and no other. *)
Theorem C81_assign : forall L params body prim truth of_bool n h cells args (e : expr L) i a v h',
  eval L params body prim truth of_bool n h cells args e = Some (Ok (v, h')) -> nth_error cells i = Some a -> a < length h' ->
  exists h2, eval L params body prim truth of_bool (S n) h cells args (Assign L i e) = Some (Ok (v, h2)) /\ length h2 = length h' /\
    nth_error h2 a = Some (Some v) /\ forall b, b <> a -> nth_error h2 b = nth_error h' b.
Proof.
  intros L params body prim truth of_bool n h cells args e i a v h' H Hi Ha. exists (set_cell L h' a v). split; [ | ].
  { cbn [eval]. rewrite H. cbn [obind]. now rewrite Hi. }
  unfold set_cell. clear -Ha. revert a Ha. induction h' as [ | c h' IH ]; intros a Ha; [ cbn in Ha; lia | ]. destruct a as [ | a ].
  - cbn [firstn app skipn length nth_error]. repeat split. intros [ | b ] Hb; [ congruence | reflexivity ].
  - cbn [length] in Ha. destruct (IH a ltac:(lia)) as (E1 & E2 & E3). change (skipn (S (S a)) (c :: h')) with (skipn (S a) h'). cbn [firstn app length nth_error]. rewrite E1. repeat split; [ exact E2 | ].
    intros [ | b ] Hb; [ reflexivity | apply E3; congruence ].
Qed.
Print Assumptions C81_assign.

(** A function that calls a captured function, which adds a captured number. *)
Definition ex_body (f : nat) : expr Z :=
  match f with 0 => Prim Z 0 [Cell Z 0; Arg Z 0] | 1 => App Z (Cell Z 0) [Prim Z 0 [Arg Z 0; Arg Z 0]] | _ => Lam Z 0 [] [CArg 0] end.
Definition ex_heap : heap Z := [Some (VLeaf Z 5%Z); Some (VFun Z 0 [] [0])].
Definition ex_conv : val Z := VClos Z 1 [] [VClos Z 0 [] [VLeaf Z 5%Z]].
Example C81_ex : (forall f, pure Z (ex_body f) = true) /\ acyclic Z ex_heap (VFun Z 1 [] [1]) /\
  to_pytree Z 5 ex_heap (VFun Z 1 [] [1]) = Some (Ok ex_conv) /\
  tree_leaves Z ex_conv = [LFun Z 1 []; LFun Z 0 []; LVal Z 5%Z] /\
  (exists g, eval Z (fun _ => 1) ex_body padd ztruth zbool 10 ex_heap [] [ex_conv] (App Z (Arg Z 0) [Lit Z 2%Z]) = Some (Ok (VLeaf Z 9%Z, g))) /\
  eval Z (fun _ => 1) ex_body padd ztruth zbool 10 ex_heap [] [VFun Z 1 [] [1]] (App Z (Arg Z 0) [Lit Z 2%Z]) = Some (Ok (VLeaf Z 9%Z, ex_heap)) /\
  same Z nat (fun f => f) Nat.eqb Z.eqb ex_conv ex_conv = true.
Proof.
  split; [ intros [ | [ | f ] ]; reflexivity | ]. split; [ repeat econstructor | ]. split; [ reflexivity | ]. split; [ reflexivity | ].
  split; [ eexists; reflexivity | ]. split; reflexivity.
Qed.
(** A captured variable without a value (its cell is empty) cannot be converted; nothing else raises. *)
Theorem C81_empty_cell : forall L h,
  (forall n v e, to_pytree L n h v = Some (Err e) -> e = ValueError) /\
  (forall n f d cells a, In a cells -> nth_error h a = Some None -> forall w, to_pytree L n h (VFun L f d cells) <> Some (Ok w)) /\
  (forall n f d a cells, nth_error h a = Some None -> to_pytree L (S n) h (VFun L f d (a :: cells)) = Some (Err ValueError)).
Proof.
  intros L h.
  assert (M : forall {X Y} (g : X -> option (res Y)) l e, omapR g l = Some (Err e) -> exists x, In x l /\ g x = Some (Err e)).
  { intros X Y g l e. induction l as [|x l IH]; cbn; [discriminate|]. destruct (g x) as [[y|e']|] eqn:E; [|intros [= <-]; eauto|discriminate].
    destruct (omapR g l) as [[ys|e']|]; try discriminate. intros [= <-]. destruct IH as (z & H1 & H2); [reflexivity|]. eauto. }
  assert (O : forall {X Y} (g : X -> option (res Y)) l ys, omapR g l = Some (Ok ys) -> forall x, In x l -> exists y, g x = Some (Ok y)).
  { intros X Y g l. induction l as [|x l IH]; cbn; [intros ys _ z []|]. intros ys. destruct (g x) as [[y|e']|] eqn:E; try discriminate.
    destruct (omapR g l) as [[ys'|e']|]; try discriminate. intros _ z [<-|Hz]; [eauto|]. exact (IH ys' eq_refl z Hz). }
  assert (R : forall {X Y} (g : X -> Y) o e, option_map (rmap g) o = Some (Err e) -> o = Some (Err e)).
  { intros X Y g [[x|e']|] e; cbn; congruence. }
  split; [|split].
  - induction n as [|n IH]; intros v e H; [discriminate|]. destruct v as [l|k vs|f d cells|f d cs]; cbn [to_pytree] in H; [discriminate| | |]; apply R in H; apply M in H as (x & _ & H).
    + exact (IH _ _ H).
    + destruct (nth_error h x) as [[v|]|]; [exact (IH _ _ H)|congruence|congruence].
    + exact (IH _ _ H).
  - intros n f d cells a Ha E w H. destruct n as [|n]; [discriminate|]. cbn [to_pytree] in H. destruct (omapR _ cells) as [[ys|e]|] eqn:EO in H; try discriminate.
    destruct (O _ _ _ _ _ EO a Ha) as [y Hy]. rewrite E in Hy. discriminate.
  - intros n f d a cells E. cbn [to_pytree omapR]. rewrite E. reflexivity.
Qed.
Print Assumptions C81_empty_cell.
