From Verif Require Import Filters_Spec.

Section Proofs.
  Context {A : Type}.
  Implicit Types (isl : tree A -> bool) (x t : tree A) (spec : tree (spec_leaf A)).

  (** Fused form of "compute the mask tree, then map over mask and tree". *)
  Definition sel_leaf isl (sel : bool -> tree A -> tree A)
      (m : tree (spec_leaf A)) (arg : tree A) : res (tree A) :=
    match m with
    | Leaf (SBool b) => Ok (tmap isl (fun s => sel b s) arg)
    | Leaf (SCall g) => Ok (tmap isl (fun s => sel (g s) s) arg)
    | _ => Err ValueError
    end.

  Lemma mask_then_map isl (g : tree A -> bool) sel x :
    tmap2 no_leaf (on_mask sel) (tmap isl (fun s => Leaf (g s)) x) x
    = Ok (tmap isl (fun s => sel (g s) s) x).
  Proof.
    induction x as [a| |k cs IH] using tree_ind'; simpl.
    - destruct (isl (Leaf a)); reflexivity.
    - destruct (isl TNone); reflexivity.
    - destruct (isl (Node k cs)); [reflexivity|]. simpl.
      rewrite Nat.eqb_refl.
      assert (H : zipM (tmap2 no_leaf (on_mask sel))
                (map (tmap isl (fun s => Leaf (g s))) cs) cs
              = Ok (map (tmap isl (fun s => sel (g s) s)) cs)).
      { induction IH as [|c cs Hc _ IHcs]; simpl; [reflexivity|].
        rewrite Hc; simpl; rewrite IHcs; reflexivity. }
      rewrite H; reflexivity.
  Qed.

  Definition fused {X Y Z} (F : res X) (G : X -> res Y) (H : res Y) (_ : Z) : Prop :=
    (exists a b, F = Ok a /\ G a = Ok b /\ H = Ok b) \/ (exists e, F = Err e /\ H = Err e).

  Lemma zipM_fuse {M C F Y} (f : M -> C -> res F) (g : F -> C -> res Y) (h : M -> C -> res Y) ms :
    Forall (fun m => forall c, fused (f m c) (fun ft => g ft c) (h m c) tt) ms ->
    forall cs, fused (zipM f ms cs) (fun fs => zipM g fs cs) (zipM h ms cs) tt.
  Proof.
    induction 1 as [|m ms Hm _ IH]; intros [|c cs]; simpl.
    - left; exists [], []; auto.
    - right; eauto.
    - right; eauto.
    - destruct (Hm c) as [(a & b & E1 & E2 & E3)|(e & E1 & E2)].
      + rewrite E1, E3; simpl.
        destruct (IH cs) as [(aa & bb & F1 & F2 & F3)|(e & F1 & F2)].
        * rewrite F1, F3; simpl. left; exists (a :: aa), (b :: bb); simpl.
          rewrite E2; simpl; rewrite F2; auto.
        * rewrite F1, F2; right; simpl; eauto.
      + rewrite E1, E2; right; simpl; eauto.
  Qed.

  Lemma filter_tree_fused isl sel spec : forall x,
    fused (filter_tree isl spec x) (fun ft => tmap2 no_leaf (on_mask sel) ft x)
          (tmap2 no_leaf (sel_leaf isl sel) spec x) tt.
  Proof.
    unfold filter_tree.
    induction spec as [l| |k ms IH] using tree_ind'; intros x.
    - simpl. destruct l as [b|g|]; simpl.
      + left; eexists _, _; split; [reflexivity|].
        rewrite (mask_then_map isl (fun _ => b)); auto.
      + left; eexists _, _; split; [reflexivity|].
        rewrite (mask_then_map isl g); auto.
      + right; eauto.
    - destruct x; simpl; [right; eauto| |right; eauto].
      left; exists TNone, TNone; auto.
    - destruct x as [a| |k' cs]; simpl; [right; eauto|right; eauto|].
      destruct (Nat.eqb k k') eqn:Ek; [|right; eauto].
      destruct (zipM_fuse _ (tmap2 no_leaf (on_mask sel)) _ ms IH cs)
        as [(a & b & E1 & E2 & E3)|(e & E1 & E2)].
      + rewrite E1, E3; simpl. left; eexists _, _; split; [reflexivity|].
        simpl; rewrite Ek, E2; simpl; auto.
      + rewrite E1, E2; right; simpl; eauto.
  Qed.

  Lemma bind_fused {X Y Z} (F : res X) (G : X -> res Y) H (z : Z) :
    fused F G H z -> bind F G = H.
  Proof.
    intros [(a & b & -> & E2 & ->)|(e & -> & ->)]; simpl; auto.
  Qed.

  Lemma filter_fused isl rep inv spec x :
    eqx_filter isl rep inv x spec =
    tmap2 no_leaf (sel_leaf isl (fun m s => if negb (Bool.eqb m inv) then s else rep)) spec x.
  Proof.
    unfold eqx_filter. eapply bind_fused, filter_tree_fused.
  Qed.

  Lemma partition_fused isl rep spec x l r :
    eqx_partition isl rep x spec = Ok (l, r) <->
    tmap2 no_leaf (sel_leaf isl (fun m s => if m then s else rep)) spec x = Ok l /\
    tmap2 no_leaf (sel_leaf isl (fun m s => if m then rep else s)) spec x = Ok r.
  Proof.
    unfold eqx_partition.
    destruct (filter_tree_fused isl (fun m s => if m then s else rep) spec x)
      as [(a & b & E1 & E2 & E3)|(e & E1 & E2)];
    destruct (filter_tree_fused isl (fun m s => if m then rep else s) spec x)
      as [(a' & b' & F1 & F2 & F3)|(e' & F1 & F2)];
    rewrite E1 in *; try discriminate; simpl.
    - injection F1 as <-. rewrite E2, F2; simpl. rewrite E3, F3.
      split; [intros [= -> ->]|intros [[= ->] [= ->]]]; auto.
    - split; [discriminate|]. intros [H _]; congruence.
  Qed.

  Lemma partition_err isl rep spec x e :
    eqx_partition isl rep x spec = Err e <->
    tmap2 no_leaf (sel_leaf isl (fun m s => if m then s else rep)) spec x = Err e.
  Proof.
    unfold eqx_partition.
    destruct (filter_tree_fused isl (fun m s => if m then s else rep) spec x)
      as [(a & b & E1 & E2 & E3)|(e1 & E1 & E2)];
    destruct (filter_tree_fused isl (fun m s => if m then rep else s) spec x)
      as [(a' & b' & F1 & F2 & F3)|(e' & F1 & F2)];
    rewrite E1 in *; try discriminate; simpl.
    - injection F1 as <-. rewrite E2, F2; simpl. rewrite E3; split; discriminate.
    - rewrite E2; split; intros [= ->]; reflexivity.
  Qed.

  (** ** Position-wise behaviour of the fused map *)

  Lemma tmap_obj_leaf isl (f : tree A -> tree A) t p s :
    obj_leaf isl t p s -> sub (tmap isl f t) p = Some (f s).
  Proof.
    induction 1 as [t Ht|a|k cs i c p s Hk Hn _ IH].
    - destruct t; simpl in *; rewrite Ht; reflexivity.
    - simpl. destruct (isl (Leaf a)); reflexivity.
    - simpl. rewrite Hk; simpl. rewrite nth_error_map, Hn; simpl; exact IH.
  Qed.

  Lemma tmap_interior isl (f : tree A -> tree A) t p sh :
    interior isl t p sh -> shape_at (tmap isl f t) p = Some sh.
  Proof.
    unfold shape_at.
    induction 1 as [H|k cs Hk|k cs i c p sh Hk Hn _ IH].
    - simpl; rewrite H; reflexivity.
    - simpl; rewrite Hk; simpl; rewrite map_length; reflexivity.
    - simpl. rewrite Hk; simpl. rewrite nth_error_map, Hn; simpl; exact IH.
  Qed.

  Lemma sel_selects isl sel spec x p s b :
    selects isl spec x p s b -> forall y,
    tmap2 no_leaf (sel_leaf isl sel) spec x = Ok y -> sub y p = Some (sel b s).
  Proof.
    induction 1 as [b t p s H|g t p s H|k ms cs i m c p s b Hm Hc _ IH]; intros y Hy; simpl in Hy.
    - injection Hy as <-. apply (tmap_obj_leaf isl (fun s => sel b s)); assumption.
    - injection Hy as <-. apply (tmap_obj_leaf isl (fun s => sel (g s) s)); assumption.
    - rewrite Nat.eqb_refl in Hy. apply rmap_ok in Hy; destruct Hy as [ys [Hz ->]]. simpl.
      destruct (zipM_nth_l _ _ _ _ Hz _ _ Hm) as (c' & y & Hc' & Hy & Hf).
      rewrite Hc in Hc'; injection Hc' as <-. rewrite Hy; apply IH; exact Hf.
  Qed.

  Lemma sel_frame isl sel spec x p sh :
    frame isl spec x p sh -> forall y,
    tmap2 no_leaf (sel_leaf isl sel) spec x = Ok y -> shape_at y p = Some sh.
  Proof.
    induction 1 as [l t p sh H| |k ms cs|k ms cs i m c p s Hm Hc _ IH]; intros y Hy; simpl in Hy.
    - destruct l; simpl in Hy; try discriminate; injection Hy as <-.
      + apply (tmap_interior isl (fun s => sel b s)); assumption.
      + apply (tmap_interior isl (fun s => sel (g s) s)); assumption.
    - injection Hy as <-; reflexivity.
    - rewrite Nat.eqb_refl in Hy. apply rmap_ok in Hy; destruct Hy as [ys [Hz ->]].
      unfold shape_at; simpl. destruct (zipM_length _ _ _ _ Hz) as [_ ->]; reflexivity.
    - rewrite Nat.eqb_refl in Hy. apply rmap_ok in Hy; destruct Hy as [ys [Hz ->]].
      destruct (zipM_nth_l _ _ _ _ Hz _ _ Hm) as (c' & y & Hc' & Hy & Hf).
      rewrite Hc in Hc'; injection Hc' as <-.
      unfold shape_at in *; simpl. rewrite Hy; apply IH; exact Hf.
  Qed.

  Lemma obj_leaf_covers isl t : forall p a, sub t p = Some (Leaf a) ->
    exists q r s, p = q ++ r /\ obj_leaf isl t q s /\ sub s r = Some (Leaf a).
  Proof.
    induction t as [a| |k cs IH] using tree_ind'; intros p b Hp.
    - exists [], p, (Leaf a); repeat split; auto. apply ol_leaf.
    - destruct p; discriminate.
    - destruct (isl (Node k cs)) eqn:E.
      + exists [], p, (Node k cs); repeat split; auto. constructor; exact E.
      + destruct p as [|i p]; [discriminate|]. simpl in Hp.
        destruct (nth_error cs i) as [c|] eqn:Hc; [|discriminate].
        rewrite Forall_forall in IH.
        destruct (IH c (nth_error_In _ _ Hc) p b Hp) as (q & r & s & -> & Hq & Hs).
        exists (i :: q), r, s; repeat split; auto. econstructor; eauto.
  Qed.

  Lemma selects_covers isl sel spec : forall x y,
    tmap2 no_leaf (sel_leaf isl sel) spec x = Ok y ->
    forall p a, sub x p = Some (Leaf a) ->
    exists q r s b, p = q ++ r /\ selects isl spec x q s b /\ sub s r = Some (Leaf a).
  Proof.
    induction spec as [l| |k ms IH] using tree_ind'; intros x y Hy p a Hp; simpl in Hy.
    - destruct (obj_leaf_covers isl x p a Hp) as (q & r & s & -> & Hq & Hs).
      destruct l; simpl in Hy; try discriminate;
        eexists q, r, s, _; repeat split; eauto; constructor; auto.
    - destruct x; try discriminate. destruct p; discriminate.
    - destruct x as [b| |k' cs]; try discriminate.
      destruct (Nat.eqb_spec k k') as [<-|]; [|discriminate].
      apply rmap_ok in Hy; destruct Hy as [ys [Hz ->]].
      destruct p as [|i p]; [discriminate|]. simpl in Hp.
      destruct (nth_error cs i) as [c|] eqn:Hc; [|discriminate].
      destruct (zipM_nth_r _ _ _ _ Hz _ _ Hc) as (m & z & Hm & Hzi & Hf).
      rewrite Forall_forall in IH.
      destruct (IH m (nth_error_In _ _ Hm) c z Hf p a Hp) as (q & r & s & b & -> & Hq & Hs).
      exists (i :: q), r, s, b; repeat split; auto. econstructor; eauto.
  Qed.

  Lemma tmap2_ok_iff isl sel spec : forall x,
    (exists y, tmap2 no_leaf (sel_leaf isl sel) spec x = Ok y) <-> spec_ok spec x.
  Proof.
    induction spec as [l| |k ms IH] using tree_ind'; intros x; simpl.
    - destruct l; simpl; (split; [intros [y Hy]; try discriminate; constructor | intros H]);
        try (eexists; reflexivity). inv H.
    - destruct x; simpl; (split; [intros [y Hy]; try discriminate; constructor|intros H]);
        try (eexists; reflexivity); inv H.
    - destruct x as [a| |k' cs]; simpl;
        try (split; [intros [y Hy]; discriminate | intros H; inv H]).
      destruct (Nat.eqb_spec k k') as [<-|Hk];
        [|split; [intros [y Hy]; discriminate | intros H; inv H; congruence]].
      split.
      + intros [y Hy]; apply rmap_ok in Hy; destruct Hy as [ys [Hz ->]]. constructor.
        clear -IH Hz. revert cs ys Hz.
        induction IH as [|m ms Hm _ IHms]; intros [|c cs] ys Hz; simpl in Hz; try discriminate;
          constructor; bind_inv; [apply Hm; eauto | eauto].
      + intros H; inv H. match goal with H : Forall2 _ _ _ |- _ => rename H into HF end.
        assert (Hz : exists ys, zipM (tmap2 no_leaf (sel_leaf isl sel)) ms cs = Ok ys).
        { clear -IH HF. revert IH. induction HF as [|m c ms cs Hmc _ IHF]; intros IH; simpl.
          - eauto.
          - inv IH. destruct (proj2 (H1 c) Hmc) as [y Hy]; rewrite Hy; simpl.
            destruct (IHF H2) as [ys Hys]; rewrite Hys; simpl; eauto. }
        destruct Hz as [ys Hys]; rewrite Hys; simpl; eauto.
  Qed.

  Lemma zipM_err_uniform {X Y Z} (f : X -> Y -> res Z) l :
    Forall (fun (x : X) => forall y e, f x y = Err e -> e = ValueError) l ->
    forall r e, zipM f l r = Err e -> e = ValueError.
  Proof.
    induction 1 as [|x l Hx _ IH]; intros [|y r] e He; simpl in He; try congruence.
    apply bind_err in He. destruct He as [He|[c [_ He]]]; [eauto|].
    apply bind_err in He. destruct He as [He|[c' [_ He]]]; [eauto|discriminate].
  Qed.

  Lemma tmap2_sel_err isl sel spec : forall x e,
    tmap2 no_leaf (sel_leaf isl sel) spec x = Err e -> e = ValueError.
  Proof.
    induction spec as [l| |k ms IH] using tree_ind'; intros x e H; simpl in H.
    - destruct l; simpl in H; congruence.
    - destruct x; congruence.
    - destruct x as [| |k' cs]; try congruence.
      destruct (Nat.eqb k k'); [|congruence].
      destruct (zipM (tmap2 no_leaf (sel_leaf isl sel)) ms cs) as [z|e'] eqn:Hz;
        simpl in H; [discriminate|]. injection H as <-.
      eapply zipM_err_uniform; eauto.
  Qed.

  (** ** partition vs filter *)
  Lemma filter_is_partition isl rep spec x :
    match eqx_partition isl rep x spec with
    | Ok (l, r) => eqx_filter isl rep false x spec = Ok l /\ eqx_filter isl rep true x spec = Ok r
    | Err e => eqx_filter isl rep false x spec = Err e /\ eqx_filter isl rep true x spec = Err e
    end.
  Proof.
    rewrite !filter_fused.
    assert (E1 : forall m, (if negb (Bool.eqb m false) then 0 else 1) = (if m then 0 else 1))
      by (intros []; reflexivity).
    assert (Hext : forall sel sel', (forall m s, sel m s = sel' m s) ->
      forall sp x, tmap2 no_leaf (sel_leaf isl sel) sp x = tmap2 no_leaf (sel_leaf isl sel') sp x).
    { clear. intros sel sel' Hs.
      assert (Hm : forall g x, tmap isl (fun s => sel (g s) s) x = tmap isl (fun s => sel' (g s) s) x).
      { intros g x; induction x as [a| |k cs IH] using tree_ind'; simpl.
        - destruct (isl (Leaf a)); rewrite Hs; reflexivity.
        - destruct (isl TNone); [rewrite Hs|]; reflexivity.
        - destruct (isl (Node k cs)); [apply Hs|]. f_equal. apply map_ext_in.
          rewrite Forall_forall in IH; exact IH. }
      induction sp as [l| |k ms IH] using tree_ind'; intros x; simpl.
      - destruct l; simpl; f_equal.
        + apply (Hm (fun _ => b)).
        + apply (Hm g).
      - reflexivity.
      - destruct x as [| |k' cs]; try reflexivity. destruct (Nat.eqb k k'); [|reflexivity].
        f_equal. revert cs; induction IH as [|m ms Hmm _ IHms]; intros [|c cs]; simpl; try reflexivity.
        rewrite Hmm, IHms; reflexivity. }
    rewrite (Hext (fun m s => if negb (Bool.eqb m false) then s else rep) (fun m s => if m then s else rep))
      by (intros [] s; reflexivity).
    rewrite (Hext (fun m s => if negb (Bool.eqb m true) then s else rep) (fun m s => if m then rep else s))
      by (intros [] s; reflexivity).
    destruct (eqx_partition isl rep x spec) as [[l r]|e] eqn:Hp.
    - apply partition_fused in Hp; exact Hp.
    - apply partition_err in Hp; split; [exact Hp|].
      pose proof (tmap2_sel_err _ _ _ _ _ Hp) as ->.
      destruct (tmap2 no_leaf (sel_leaf isl (fun m s => if m then rep else s)) spec x) as [y|e] eqn:E.
      + assert (Hok : exists y, tmap2 no_leaf (sel_leaf isl (fun m s => if m then rep else s)) spec x = Ok y) by eauto.
        rewrite tmap2_ok_iff in Hok. rewrite <- (tmap2_ok_iff isl (fun m s => if m then s else rep)) in Hok.
        destruct Hok; congruence.
      + rewrite (tmap2_sel_err _ _ _ _ _ E); reflexivity.
  Qed.

  (** ** combine *)
  Lemma column_nil {X} i : column i ([] : list (list X)) = [].
  Proof. reflexivity. Qed.

  Lemma tmapn_single isl (f : tree A -> list (tree A) -> tree A) t0 : forall t1,
    tmapn isl (fun x xs => Ok (f x xs)) t0 [t1] = tmap2 isl (fun x y => Ok (f x [y])) t0 t1.
  Proof.
    induction t0 as [a| |k cs IH] using tree_ind'; intros t1; simpl.
    - destruct (isl (Leaf a)); reflexivity.
    - destruct (isl TNone); [reflexivity|]. destruct t1; reflexivity.
    - destruct (isl (Node k cs)); [reflexivity|].
      destruct t1 as [a| |k' ds]; try reflexivity.
      destruct (Nat.eqb k k'); simpl; [|reflexivity].
      destruct (Nat.eqb_spec (length cs) (length ds)) as [Hl|Hl]; simpl.
      + f_equal.
        assert (Hgen : forall pre suf cs', length cs' = length suf -> ds = pre ++ suf ->
          Forall (fun t0 => forall t1, tmapn isl (fun x xs => Ok (f x xs)) t0 [t1] =
                    tmap2 isl (fun x y => Ok (f x [y])) t0 t1) cs' ->
          mapMi (fun i c => tmapn isl (fun x xs => Ok (f x xs)) c
              match nth_error ds i with Some x => [x] | None => [] end) (length pre) cs'
          = zipM (tmap2 isl (fun x y => Ok (f x [y]))) cs' suf).
        { intros pre suf cs'; revert pre suf.
          induction cs' as [|c cs' IHc]; intros pre [|d suf] Hlen E HF; try discriminate; simpl.
          - reflexivity.
          - rewrite E at 1.
            rewrite nth_error_app2, Nat.sub_diag by lia; simpl. inv HF. rewrite H1.
            destruct (tmap2 isl _ c d); simpl; [|reflexivity].
            specialize (IHc (pre ++ [d]) suf).
            rewrite app_length in IHc; simpl in IHc; rewrite Nat.add_1_r in IHc.
            rewrite IHc; auto. rewrite <- app_assoc; reflexivity. }
        apply (Hgen [] ds cs); auto.
      + clear IH. destruct (zipM _ cs ds) eqn:E; simpl.
        * apply zipM_length in E; lia.
        * f_equal. assert (He : e = ValueError); [|congruence].
          eapply (zipM_err_uniform _ cs) with (e := e); [|exact E].
          rewrite Forall_forall; intros t _.
          clear. induction t as [a| |k cs IH] using tree_ind'; intros y e; simpl.
          -- destruct (isl (Leaf a)); discriminate.
          -- destruct (isl TNone); [discriminate|]; destruct y; congruence.
          -- destruct (isl (Node k cs)); [discriminate|]. destruct y as [| |k' ds]; try congruence.
             destruct (Nat.eqb k k'); [|congruence].
             destruct (zipM _ cs ds) eqn:E; simpl; [discriminate|].
             intros [= <-]; eapply zipM_err_uniform; [|exact E]. exact IH.
  Qed.

  Definition comb2 (x y : tree A) : res (tree A) := Ok (combine_args [x; y]).

  Lemma combine_two isl l r :
    eqx_combine isl [l; r] =
    tmap2 (fun x => is_none x || isl x) comb2 l r.
  Proof. unfold eqx_combine. apply (tmapn_single _ (fun x xs => combine_args (x :: xs))). Qed.

  Lemma combine_args_one (t : tree A) : combine_args [t] = t.
  Proof. destruct t; reflexivity. Qed.

  Lemma combine_args_left (t u : tree A) : is_none t = false -> combine_args [t; u] = t.
  Proof. intros H; simpl; rewrite H; reflexivity. Qed.

  Lemma combine_none_l isl r :
    tmap2 (fun x : tree A => is_none x || isl x) comb2 TNone r = Ok r.
  Proof. simpl. destruct r; reflexivity. Qed.

  Lemma combine_none_r isl (s : tree A) : is_none s = true \/ isl s = true \/ (exists a, s = Leaf a) ->
    tmap2 (fun x : tree A => is_none x || isl x) comb2 s TNone = Ok s.
  Proof.
    intros [H|[H|[a ->]]].
    - destruct s; try discriminate; reflexivity.
    - destruct s; simpl in *; try rewrite H; reflexivity.
    - simpl; destruct (isl (Leaf a)); reflexivity.
  Qed.

  Lemma roundtrip_tmap isl (g : tree A -> bool) x : root_only isl ->
    tmap2 (fun x => is_none x || isl x) comb2
      (tmap isl (fun s => if g s then s else TNone) x)
      (tmap isl (fun s => if g s then TNone else s) x) = Ok x.
  Proof.
    intros Hr.
    induction x as [a| |k cs IH] using tree_ind'; simpl.
    - destruct (isl (Leaf a)) eqn:E; destruct (g (Leaf a)); simpl; rewrite ?E; reflexivity.
    - destruct (isl TNone) eqn:E; [destruct (g TNone)|]; reflexivity.
    - destruct (isl (Node k cs)) eqn:E.
      + destruct (g (Node k cs)); simpl; rewrite ?E; reflexivity.
      + simpl. rewrite (Hr _ (Node k cs)) by reflexivity. rewrite E, Nat.eqb_refl.
        match goal with |- rmap _ ?z = _ => assert (H : z = Ok cs) end; [|rewrite H; reflexivity].
        clear E. induction IH as [|c cs Hc _ IHcs]; simpl; [reflexivity|].
        rewrite Hc; simpl; rewrite IHcs; reflexivity.
  Qed.

  Lemma roundtrip isl spec : root_only isl -> forall x l r,
    spec_above isl spec x ->
    eqx_partition isl TNone x spec = Ok (l, r) -> eqx_combine isl [l; r] = Ok x.
  Proof.
    intros Hr x l r Hsa Hp. apply partition_fused in Hp; destruct Hp as [Hl Hrr].
    rewrite combine_two.
    revert x l r Hsa Hl Hrr.
    induction spec as [lf| |k ms IH] using tree_ind'; intros x l r Hsa Hl Hrr; simpl in Hl, Hrr.
    - destruct lf as [b|g|]; simpl in *; try discriminate; bind_inv.
      + apply (roundtrip_tmap isl (fun _ => b)); exact Hr.
      + apply (roundtrip_tmap isl g); exact Hr.
    - destruct x; try discriminate; bind_inv; reflexivity.
    - destruct x as [| |k' cs]; try discriminate.
      destruct (Nat.eqb_spec k k') as [<-|]; [|discriminate].
      apply rmap_ok in Hl; destruct Hl as [ls [Hl ->]].
      apply rmap_ok in Hrr; destruct Hrr as [rs [Hrr ->]].
      inv Hsa. match goal with H : Forall2 _ _ _ |- _ => rename H into HF end.
      match goal with H : isl (Node _ _) = false |- _ => rename H into Hf end.
      simpl. rewrite (Hr _ (Node k cs)) by reflexivity. rewrite Hf, Nat.eqb_refl.
      match goal with |- rmap _ ?z = _ => assert (H : z = Ok cs) end; [|rewrite H; reflexivity].
      clear Hf. revert ls rs Hl Hrr IH.
      induction HF as [|m c ms cs Hmc _ IHF]; intros ls rs Hl Hrr IH; simpl in Hl, Hrr; bind_inv.
      + reflexivity.
      + inv IH. simpl. rewrite (H1 c); auto. simpl. rewrite IHF; auto.
  Qed.

  Lemma spec_above_no_leaf spec : forall x, spec_ok spec x -> spec_above no_leaf spec x.
  Proof.
    induction spec as [lf| |k ms IH] using tree_ind'; intros x H; inv H; constructor; auto.
    match goal with H : Forall2 _ _ _ |- _ => rename H into HF end.
    clear -IH HF. revert IH; induction HF as [|m c ms cs Hmc _ IHF]; intros IH; constructor; inv IH; auto.
  Qed.

  Lemma roundtrip_no_leaf spec x l r :
    eqx_partition no_leaf TNone x spec = Ok (l, r) -> eqx_combine no_leaf [l; r] = Ok x.
  Proof.
    intros H. eapply roundtrip; eauto.
    - intros t t' _; reflexivity.
    - apply partition_fused in H. apply spec_above_no_leaf.
      eapply tmap2_ok_iff; exists l; apply H.
  Qed.
End Proofs.
