(** C83: filter_pmap. *)
From Verif Require Import Vmap_Model Vmap_Spec Vmap_Proofs Vmap_Proofs2 Vmap_Props Filters_Proofs Leafwise Pmap_Model.
Local Open Scope nat_scope.
Local Open Scope list_scope.

(** ** Trees of leaves with their axes *)
Section Paired.
  Context {X : Type}.
  Notation P := (gleaf X * option Z)%type.
  Definition values (z : tree P) : tree (gleaf X) := lw (fun p => Leaf (fst p)) z.
  Definition axes (z : tree P) : tree Z := lw (fun p => of_opt (snd p)) z.
  Lemma axes_at_paired t ax : axes_at t ax -> exists z, values z = t /\ axes z = ax.
  Proof.
    unfold values, axes. revert ax. induction t as [l| |k cs IH] using tree_ind'; intros ax H; inversion H as [? i|?| |? ? xs HF]; subst.
    - exists (Leaf (l, Some i)). auto.
    - exists (Leaf (l, None)). auto.
    - exists TNone. auto.
    - clear H. assert (G : exists zs, map (lw (fun p : P => Leaf (fst p))) zs = cs /\ map (lw (fun p : P => of_opt (snd p))) zs = xs).
      { revert xs HF. induction IH as [|c cs Hc _ IHc]; intros xs HF; inversion HF as [|? x ? xs' H1 H2]; subst.
        - exists []. auto.
        - destruct (Hc x H1) as (z & <- & <-). destruct (IHc _ H2) as (zs & <- & <-). exists (z :: zs). auto. }
      destruct G as (zs & <- & <-). exists (Node k zs). auto.
  Qed.
  Lemma filter_axes (c : tree Z -> bool) z :
    eqx_filter is_none TNone false (values z) (axis_mask c (axes z)) = Ok (lw (fun p => if c (of_opt (snd p)) then Leaf (fst p) else TNone) z).
  Proof.
    rewrite filter_fused. unfold values, axes, axis_mask. induction z as [p| |k cs IH] using tree_ind'.
    - cbn [lw]. destruct p as [l [i|]]; cbn; destruct (c _); reflexivity.
    - cbn. destruct (c TNone); reflexivity.
    - cbn [lw tmap is_none tmap2 no_leaf]. rewrite Nat.eqb_refl.
      match goal with |- rmap _ ?x = _ => enough (E : x = Ok (map (lw (fun p : P => if c (of_opt (snd p)) then Leaf (fst p) else TNone)) cs)) by (rewrite E; reflexivity) end.
      induction IH as [|q cs Hq _ IHq]; cbn [map zipM]; [reflexivity|]. rewrite Hq. cbn [bind]. rewrite IHq. reflexivity.
  Qed.
End Paired.

(** A map that may fail, leaf by leaf. *)
Section UpM.
  Context {A X Y : Type}.
  Definition got {B} (r : res B) : tree B := match r with Ok y => Leaf y | Err _ => TNone end.
  Lemma upM_lw (f : gleaf X -> res (gleaf Y)) (g : A -> tree (gleaf X)) z u : (forall a, small (g a)) ->
    upM f (lw g z) = Ok u <->
    (forall a x, In a (labels z) -> g a = Leaf x -> exists y, f x = Ok y) /\
    u = lw (fun a => match g a with Leaf x => got (f x) | _ => TNone end) z.
  Proof.
    intros Hs. revert u. induction z as [a| |k cs IH] using tree_ind'; intros u; cbn [lw].
    - specialize (Hs a). destruct (g a) as [x| |] eqn:E; [| |contradiction]; cbn [upM].
      + destruct (f x) as [y|e] eqn:F; cbn [rmap got]; split.
        * intros H. injection H as <-. split; [|reflexivity]. intros b x' [<-|[]] E'. rewrite E in E'. injection E' as <-. eauto.
        * intros [_ ->]. reflexivity.
        * discriminate.
        * intros [H _]. destruct (H a x (or_introl eq_refl) E) as [y Hy]. congruence.
      + split; [intros H; injection H as <-; split; [|reflexivity]|intros [_ ->]; reflexivity]. intros b x' [<-|[]] E'. congruence.
    - cbn [upM]. split; [intros H; injection H as <-; split; [|reflexivity]; intros a x []|intros [_ ->]; reflexivity].
    - rewrite upM_node.
      assert (G : forall us, mapM (upM f) (map (lw g) cs) = Ok us <->
        (forall a x, In a (concat (map labels cs)) -> g a = Leaf x -> exists y, f x = Ok y) /\
        us = map (lw (fun a => match g a with Leaf x => got (f x) | _ => TNone end)) cs).
      { induction IH as [|c cs Hc _ IHc]; intros us; cbn [map mapM concat].
        - split; [intros H; injection H as <-; split; [intros a x []|reflexivity]|intros [_ ->]; reflexivity].
        - split.
          + intros H. apply bind_ok in H as (v & Hv & H). apply bind_ok in H as (vs & Hvs & H). injection H as <-.
            apply Hc in Hv as [V1 ->]. apply IHc in Hvs as [V2 ->]. split; [|reflexivity].
            intros a x Ha. apply in_app_or in Ha as [Ha|Ha]; eauto.
          + intros [H ->]. rewrite (proj2 (Hc _)) by (split; [intros a x Ha; apply H; apply in_or_app; auto|reflexivity]). cbn [bind].
            rewrite (proj2 (IHc _)) by (split; [intros a x Ha; apply H; apply in_or_app; auto|reflexivity]). reflexivity. }
      cbn [labels]. split.
      + intros H. apply rmap_ok in H as (us & Hus & ->). apply G in Hus as [H1 ->]. auto.
      + intros [H ->]. rewrite (proj2 (G _)) by (split; [exact H|reflexivity]). reflexivity.
  Qed.
  Lemma got_small {B} (r : res B) : small (got r).
  Proof. destruct r; exact I. Qed.
End UpM.
Lemma leaf_list_labels {A} (t : tree A) : leaf_list t = labels t.
Proof. unfold leaf_list. rewrite leaves_labels. induction (labels t) as [|a l IH]; simpl; [reflexivity|]. rewrite IH. reflexivity. Qed.
Lemma labels_values {X} (z : tree (gleaf X * option Z)) : labels (values z) = map fst (labels z).
Proof. unfold values. rewrite labels_lw. induction (labels z) as [|a l IH]; simpl in *; [reflexivity|]. rewrite IH. reflexivity. Qed.
Lemma labels_axes {X} (z : tree (gleaf X * option Z)) i : In i (labels (axes z)) <-> exists p, In p (labels z) /\ snd p = Some i.
Proof.
  unfold axes. rewrite labels_lw, in_flat_map. split; intros (p & Hp & H); exists p; split; auto; destruct (snd p) as [j|]; cbn in *.
  - destruct H as [<-|[]]. reflexivity.
  - contradiction.
  - injection H as <-. auto.
  - discriminate.
Qed.

Lemma partition_is_arr {X} (t : tree (gleaf X)) : eqx_partition no_leaf TNone t (Leaf (SCall is_arr)) =
  Ok (lw (fun l => if is_arr (Leaf l) then Leaf l else TNone) t, lw (fun l => if is_arr (Leaf l) then TNone else Leaf l) t).
Proof. apply partition_fused. cbn [tmap2 no_leaf sel_leaf]. rewrite !tmap_lw. split; reflexivity. Qed.

Section Props.
  Variable V : Type.
  Variable asize : V -> Z -> res nat.
  Variable atake : V -> Z -> nat -> V.
  Variable astack : list V -> V.
  Variable amove : V -> Z -> res V.
  Variable of_num : Z -> V.
  Variable rank : bat V -> nat.
  Variable pick : list V -> res V.
  Variable fn : tree (gleaf (bat V)) -> res (tree (gleaf (bat V))).
  Variable out_spec : tree (axis_spec (bat V)).
  Notation pmap := (filter_pmap V asize atake astack amove of_num rank pick fn out_spec).
  Notation vmap := (filter_vmap V asize atake astack amove of_num fn out_spec).
  Notation PI := (gleaf V * option Z)%type.
  Notation PO := (gleaf (bat V) * option Z)%type.

  (** ** Vocabulary *)
  (** What the devices get: a slice of every array with an axis; everything else as it is, even if there is an axis for it. *)
  Definition spread1 (n : nat) (p : PI) : gleaf (bat V) :=
    match p with (Arr a, Some i) => Arr (Bat (map (atake a i) (seq 0 n))) | (l, _) => emb V l end.
  Definition spread (n : nat) (z : tree PI) : tree (gleaf (bat V)) := lw (fun p => Leaf (spread1 n p)) z.
  (** What is made of the outputs of the devices: stacked along the axis, or the value of one device. *)
  Definition collect1 (n : nat) (p : PO) : res (gleaf V) :=
    match p with
    | (Arr (Bat l), Some i) => rmap Arr (amove (astack l) i)
    | (Arr (Unb a), Some i) => rmap Arr (amove (astack (repeat a n)) i)
    | (Num k, Some i) => rmap Arr (amove (astack (repeat (of_num k) n)) i)
    | (Obj _, Some _) => Err TypeError
    | (Arr (Bat l), None) => rmap Arr (pick l)
    | (Arr (Unb a), None) => Ok (Arr a)
    | (Num k, None) => Ok (Num k)
    | (Obj m, None) => Ok (Obj m)
    end.
  Definition collected (n : nat) (z : tree PO) (r : tree (gleaf V)) : Prop :=
    (forall p, In p (labels z) -> exists y, collect1 n p = Ok y) /\ r = lw (fun p => got (collect1 n p)) z.
  (** Axes must be dimensions of the output of the largest rank, the axis of devices included. *)
  Definition dims (x : gleaf (bat V)) : Z := match x with Arr b => (1 + Z.of_nat (rank b))%Z | Num _ => 1%Z | Obj _ => 0%Z end.
  Definition in_range (z : tree PO) : Prop :=
    forall p i, In p (labels z) -> snd p = Some i ->
    exists q, In q (labels z) /\ (- dims (fst q) <= i < dims (fst q))%Z.
  Definition sized (n : nat) (axis_size : option nat) (z : tree PI) : Prop :=
    (forall a i, In (Arr a, Some i) (labels z) -> asize a i = Ok n) /\
    (axis_size = Some n \/ axis_size = None /\ exists a i, In (Arr a, Some i) (labels z)).

  (** ** Lemmas: outputs *)
  Lemma stack_at_collect n i x : stack_at V astack amove of_num n i x = collect1 n (x, Some i).
  Proof. unfold stack_at. destruct x as [[a|l]|k|o]; reflexivity. Qed.
  Lemma one_collect n x : one_leaf V pick x = collect1 n (x, None).
  Proof. destruct x as [[a|l]|k|o]; reflexivity. Qed.
  Lemma axes_range_In m i : In i (axes_range m) <-> (- Z.of_nat m <= i < Z.of_nat m)%Z.
  Proof.
    unfold axes_range. rewrite in_map_iff. split.
    - intros (j & <- & Hj). apply in_seq in Hj. lia.
    - intros H. exists (Z.to_nat (i + Z.of_nat m)). rewrite in_seq. lia.
  Qed.
  Lemma dims_rank x : dims x = Z.of_nat (out_rank V rank x).
  Proof. destruct x; cbn [dims out_rank]; lia. Qed.
  Notation maxi l := (fold_right Nat.max 0 (map (out_rank V rank) l)).
  Lemma max_out l (i : Z) : (- Z.of_nat (maxi l) <= i < Z.of_nat (maxi l))%Z <->
    exists x, In x l /\ (- Z.of_nat (out_rank V rank x) <= i < Z.of_nat (out_rank V rank x))%Z.
  Proof.
    induction l as [|y l IH]; cbn [map fold_right].
    - split; [lia|intros (x & [] & _)].
    - split.
      + intros H. destruct (Nat.max_spec (out_rank V rank y) (maxi l)) as [[_ E]|[_ E]]; rewrite E in H.
        * apply IH in H as (x & Hx & H). exists x. split; [right; exact Hx|exact H].
        * exists y. split; [left; reflexivity|exact H].
      + intros (x & [<-|Hx] & H); [lia|]. assert (H' := proj2 IH (ex_intro _ x (conj Hx H))). lia.
  Qed.
  Lemma first_range (p : PO) (f : Z -> tree (gleaf V)) (l : list Z) (last : tree (gleaf V)) :
    (forall i, In i l -> f i <> TNone -> snd p = Some i) ->
    match snd p with
    | Some i => In i l -> f i <> TNone -> combine_args (map f l ++ [last]) = f i
    | None => combine_args (map f l ++ [last]) = last
    end.
  Proof.
    intros H. destruct (snd p) as [i|].
    - intros Hi Hf. induction l as [|j l IH]; [contradiction|]. cbn [map List.app combine_args].
      destruct (is_none (f j)) eqn:E.
      + destruct Hi as [->|Hi]; [destruct (f i); try discriminate E; contradiction|].
        apply IH; auto. intros k Hk. apply H. right. exact Hk.
      + assert (Some i = Some j) as Ej by (apply H; [left; reflexivity|intros C; rewrite C in E; discriminate]). injection Ej as <-. reflexivity.
    - induction l as [|j l IH]; cbn [map List.app combine_args].
      + destruct last; reflexivity.
      + destruct (is_none (f j)) eqn:E.
        * apply IH. intros k Hk. apply H. right. exact Hk.
        * exfalso. assert (None = Some j) as Ej by (apply H; [left; reflexivity|intros C; rewrite C in E; discriminate]). discriminate.
  Qed.
  Lemma mapM_lw {A B} (F : Z -> res (tree B)) (h : Z -> A -> tree B) (z : tree A) l us :
    (forall i u, In i l -> F i = Ok u -> u = lw (h i) z) -> mapM F l = Ok us -> us = map (fun i => lw (h i) z) l /\ forall i, In i l -> exists u, F i = Ok u.
  Proof.
    revert us. induction l as [|i l IH]; intros us H HM; cbn [mapM map] in *.
    - injection HM as <-. split; [reflexivity|]. intros i [].
    - apply bind_ok in HM as (u & Hu & HM). apply bind_ok in HM as (vs & Hvs & HM). injection HM as <-.
      destruct (IH vs) as [-> E]; auto. { intros j w Hj. apply H. right. exact Hj. }
      split; [f_equal; apply H; [left; reflexivity|exact Hu]|]. intros j [<-|Hj]; eauto.
  Qed.
  Lemma outputs_ok n out r :
    outputs V astack amove of_num pick out_spec n (max_out_size V rank out) out = Ok r <->
    exists z, values z = out /\ resolves out_spec out (axes z) /\ in_range z /\ collected n z r.
  Proof.
    assert (MAIN : forall z, values z = out -> resolves out_spec out (axes z) ->
      (outputs V astack amove of_num pick out_spec n (max_out_size V rank out) out = Ok r <-> in_range z /\ collected n z r)).
    { intros z <- Hr. unfold outputs. rewrite (proj2 (resolve_iff _ _ _) Hr). cbn [bind].
      assert (RNG : forallb (check_out_axis (max_out_size V rank (values z))) (leaf_list (axes z)) = true <-> in_range z).
      { rewrite leaf_list_labels, forallb_forall. unfold in_range. unfold max_out_size. rewrite leaf_list_labels, labels_values.
        assert (C : forall m i, check_out_axis m i = true <-> (- Z.of_nat m <= i < Z.of_nat m)%Z).
        { intros m i. unfold check_out_axis. rewrite negb_true_iff, orb_false_iff, Z.ltb_ge, Z.leb_gt. tauto. }
        split.
        - intros H p i Hp Hi. assert (In i (labels (axes z))) as Hin by (apply labels_axes; eauto). specialize (H i Hin). apply C, max_out in H as (x & Hx & H).
          apply in_map_iff in Hx as (q & <- & Hq). exists q. rewrite dims_rank. auto.
        - intros H i Hi. apply labels_axes in Hi as (p & Hp & Hi). apply C, max_out. destruct (H p i Hp Hi) as (q & Hq & HH). rewrite dims_rank in HH. exists (fst q). split; [apply in_map; exact Hq|exact HH]. }
      set (m := max_out_size V rank (values z)) in *.
      assert (INR : in_range z -> forall p i, In p (labels z) -> snd p = Some i -> In i (axes_range m)).
      { intros H p i Hp Hi. apply axes_range_In. unfold m, max_out_size. rewrite leaf_list_labels, labels_values. apply max_out.
        destruct (H p i Hp Hi) as (q & Hq & HH). rewrite dims_rank in HH. exists (fst q). split; [apply in_map; exact Hq|exact HH]. }
      destruct (forallb _ _) eqn:EF; cbn [negb]; [|split; [discriminate|intros [H _]; apply RNG in H; discriminate]].
      assert (IR := proj1 RNG eq_refl). specialize (INR IR). clear RNG EF.
      set (sel := fun i (p : PO) => if is_axis i (of_opt (snd p)) then Leaf (fst p) else TNone : tree (gleaf (bat V))).
      set (rest := fun p : PO => if is_none (of_opt (snd p)) then Leaf (fst p) else TNone : tree (gleaf (bat V))).
      assert (Ssel : forall i p, small (sel i p)) by (intros i p; unfold sel; destruct (is_axis i _); exact I).
      assert (FM : forall i, (f <- eqx_filter is_none TNone false (values z) (axis_mask (is_axis i) (axes z)) ;; upM (stack_at V astack amove of_num n i) f)
                             = upM (stack_at V astack amove of_num n i) (lw (sel i) z)).
      { intros i. rewrite filter_axes. reflexivity. }
      assert (SELI : forall i p, sel i p <> TNone -> snd p = Some i).
      { intros i [l [j|]]; unfold sel; cbn; [|congruence]. destruct (Z.eqb_spec j i) as [->|N]; [reflexivity|congruence]. }
      assert (SELX : forall i p x, sel i p = Leaf x -> p = (x, Some i)).
      { intros i p x H. assert (E : snd p = Some i) by (apply SELI; rewrite H; discriminate). destruct p as [l o]. cbn in E. subst o. unfold sel in H. cbn in H. rewrite Z.eqb_refl in H. congruence. }
      rewrite filter_axes. fold rest. cbn [bind]. rewrite partition_is_arr. cbn [bind]. rewrite !lw_lw.
      set (restd := fun p : PO => lw (fun l : gleaf (bat V) => if is_arr (Leaf l) then Leaf l else TNone) (rest p)).
      set (rests := fun p : PO => lw (fun l : gleaf (bat V) => if is_arr (Leaf l) then TNone else Leaf l) (rest p)).
      assert (Srd : forall p, small (restd p)) by (intros [[b|k|o] [i|]]; exact I).
      assert (Srs : forall p, small (rests p)) by (intros [[b|k|o] [i|]]; exact I).
      set (h := fun i (p : PO) => match sel i p with Leaf x => got (stack_at V astack amove of_num n i x) | _ => TNone end).
      set (hd := fun p : PO => match restd p with Leaf x => got (one_leaf V pick x) | _ => TNone end).
      set (hs := fun p : PO => match rests p with Leaf x => got (one_leaf V pick x) | _ => TNone end).
      assert (S2 : forall s, mapM (fun i => f <- eqx_filter is_none TNone false (values z) (axis_mask (is_axis i) (axes z)) ;; upM (stack_at V astack amove of_num n i) f) (axes_range m) = Ok s ->
                   forall p i, In p (labels z) -> snd p = Some i -> exists y, collect1 n p = Ok y).
      { intros s Hs p i Hp Hi. destruct (mapM_lw _ h z _ _ (fun j u _ Hu => proj2 (proj1 (upM_lw _ _ z u (Ssel j)) (eq_trans (eq_sym (FM j)) Hu))) Hs) as [_ HE].
        destruct (HE i (INR p i Hp Hi)) as [u Hu]. rewrite FM in Hu. apply upM_lw in Hu as [Hu _]; [|apply Ssel].
        destruct p as [x o]. cbn in Hi. subst o. rewrite <- stack_at_collect. apply (Hu (x, Some i) x Hp). unfold sel. cbn. rewrite Z.eqb_refl. reflexivity. }
      match goal with |- ?ch = Ok r <-> _ => set (chain := ch) end.
      assert (S1 : (forall p, In p (labels z) -> exists y, collect1 n p = Ok y) -> chain = Ok (lw (fun p => got (collect1 n p)) z)).
      { intros SU. unfold chain.
        rewrite (mapM_map _ (fun i => lw (h i) z)).
        2: { intros i _. rewrite FM. apply upM_lw; [apply Ssel|]. split; [|reflexivity]. intros p x Hp Hx. apply SELX in Hx. subst p.
             rewrite stack_at_collect. apply SU. exact Hp. }
        cbn [bind]. rewrite (proj2 (upM_lw _ restd z (lw hd z) Srd)).
        2: { split; [|reflexivity]. intros p x Hp Hx. rewrite (one_collect n). destruct p as [[b|k|o] [i|]]; cbn in Hx; try discriminate; injection Hx as <-; apply SU; exact Hp. }
        cbn [bind]. rewrite (proj2 (upM_lw _ rests z (lw hs z) Srs)).
        2: { split; [|reflexivity]. intros p x Hp Hx. rewrite (one_collect n). destruct p as [[b|k|o] [i|]]; cbn in Hx; try discriminate; injection Hx as <-; apply SU; exact Hp. }
        cbn [bind].
        assert (Shd : forall p, small (hd p)) by (intros p; unfold hd; destruct (restd p); try exact I; apply got_small).
        pose proof (combine_lw hd [hs] z Shd) as E. cbn [map] in E. rewrite E. clear E. cbn [bind].
        set (lst := fun p => combine_args [hd p; hs p]).
        assert (CMB : eqx_combine no_leaf (map (fun i => lw (h i) z) (axes_range m) ++ [lw lst z]) =
                      Ok (lw (fun p => combine_args (map (fun i => h i p) (axes_range m) ++ [lst p])) z)).
        { assert (Sh : forall i p, small (h i p)) by (intros i p; unfold h; destruct (sel i p); try exact I; apply got_small).
          destruct (axes_range m) as [|i0 l].
          - cbn [map List.app]. assert (Sl : forall p, small (lst p)).
            { intros p. unfold lst. cbn [combine_args]. specialize (Shd p). destruct (hd p) eqn:Eh; try exact I; [|contradiction]. cbn [is_none].
              unfold hs. destruct (rests p) as [x| |]; cbn; try exact I. destruct (got (one_leaf V pick x)) eqn:G; exact I || (pose proof (got_small (one_leaf V pick x)) as GS; rewrite G in GS; contradiction). }
            pose proof (combine_lw lst [] z Sl) as E. cbn [map] in E. exact E.
          - pose proof (combine_lw (h i0) (map h l ++ [lst]) z (Sh i0)) as E. rewrite map_app, map_map in E. cbn [map List.app] in *. rewrite E.
            f_equal. apply lw_ext. intros p. rewrite map_app, map_map. reflexivity. }
        etransitivity; [exact CMB|]. f_equal. apply lw_ext_in. intros p Hp.
        assert (FR := first_range p (fun i => h i p) (axes_range m) (lst p)). cbn beta in FR.
        assert (F0 : forall i, In i (axes_range m) -> h i p <> TNone -> snd p = Some i).
        { intros i _ Hh. apply SELI. intros C. apply Hh. unfold h. rewrite C. reflexivity. }
        specialize (FR F0). destruct (SU p Hp) as [y Hy]. destruct p as [x [i|]]; cbn [snd] in FR.
        - assert (Eh : h i (x, Some i) = Leaf y). { unfold h, sel. cbn. rewrite Z.eqb_refl, stack_at_collect, Hy. reflexivity. }
          rewrite FR, Eh, Hy; [reflexivity|apply (INR (x, Some i)); auto|rewrite Eh; discriminate].
        - rewrite FR, Hy. rewrite <- one_collect in Hy. unfold lst, hd, hs. destruct x as [b|k|o]; cbn in *; rewrite ?Hy; try reflexivity; injection Hy as <-; reflexivity. }
      split.
      - intros H. pose proof H as H'. unfold chain in H. apply bind_ok in H as (ps & Hps & H). apply bind_ok in H as (d & Hd & H). apply bind_ok in H as (st & Hst & H).
        split; [exact IR|].
        assert (SU : forall p, In p (labels z) -> exists y, collect1 n p = Ok y).
        { intros p Hp. destruct p as [x [i|]]; [apply (S2 _ Hps _ i Hp); reflexivity|]. rewrite <- one_collect.
          apply upM_lw in Hd as [Hd _]; [|exact Srd]. apply upM_lw in Hst as [Hst _]; [|exact Srs].
          destruct x as [b|k|o]; [apply (Hd (Arr b, None) _ Hp)|apply (Hst (Num k, None) _ Hp)|apply (Hst (Obj o, None) _ Hp)]; reflexivity. }
        split; [exact SU|]. rewrite (S1 SU) in H'. congruence.
      - intros [_ [SU ->]]. apply S1. exact SU. }
    split.
    - intros H. pose proof H as H'. unfold outputs in H. apply bind_ok in H as (oax & Ho & _). apply resolve_iff in Ho.
      destruct (axes_at_paired _ _ (resolves_axes _ _ _ Ho)) as (z & Hz & <-). exists z. split; [exact Hz|]. split; [exact Ho|]. apply MAIN; assumption.
    - intros (z & Hz & Ho & H). apply (MAIN z); assumption.
  Qed.

  (** ** Lemmas: inputs *)
  Lemma tmap2_lw_none_inv {A B C D} (F : tree B -> tree C -> res (tree D)) (f : A -> tree B) (g : A -> tree C) (t : tree A) u :
    (forall a, small (f a)) -> tmap2 is_none F (lw f t) (lw g t) = Ok u -> forall a, In a (labels t) -> exists y, F (f a) (g a) = Ok y.
  Proof.
    intros Hs. revert u. induction t as [a| |k cs IH] using tree_ind'; intros u H b Hb; cbn [lw labels] in *.
    - destruct Hb as [<-|[]]. specialize (Hs a). destruct (f a) as [x| |]; [eexists; exact H|eexists; exact H|contradiction].
    - contradiction.
    - cbn [tmap2 is_none] in H. rewrite Nat.eqb_refl in H. apply rmap_ok in H as (us & H & ->). revert us H.
      induction IH as [|c cs Hc _ IHc]; intros us H; cbn [map zipM concat] in *; [contradiction|].
      apply bind_ok in H as (v & Hv & H). apply bind_ok in H as (vs & Hvs & H). apply in_app_or in Hb as [Hb|Hb]; eauto.
  Qed.
  Lemma batch_size_iff axs ns n : batch_size axs ns = Ok n <-> (forall k, In k ns -> k = n) /\ (axs = Some n \/ axs = None /\ ns <> []).
  Proof.
    unfold batch_size. assert (FB : forall m l, forallb (Nat.eqb m) l = true <-> forall k, In k l -> k = m).
    { intros m l. rewrite forallb_forall. split; intros H k Hk; specialize (H k Hk); [apply Nat.eqb_eq in H; auto|subst; apply Nat.eqb_refl]. }
    destruct axs as [m|].
    - destruct (forallb (Nat.eqb m) ns) eqn:E.
      + pose proof (proj1 (FB m ns) E) as E'. split; [intros H; injection H as <-; auto|intros [_ [H|[H _]]]; [congruence|discriminate]].
      + split; [discriminate|]. intros [H [Hm|[Hm _]]]; [|discriminate]. injection Hm as ->. apply FB in H. congruence.
    - destruct ns as [|m ns].
      + split; [discriminate|]. intros [_ [H|[_ H]]]; [discriminate|congruence].
      + destruct (forallb (Nat.eqb m) ns) eqn:E.
        * split.
          -- intros H. injection H as <-. split; [|right; split; [reflexivity|discriminate]]. intros k [<-|Hk]; [reflexivity|]. apply (proj1 (FB m ns) E). exact Hk.
          -- intros [H _]. f_equal. apply H. left. reflexivity.
        * split; [discriminate|]. intros [H _]. assert (m = n) as <- by (apply H; left; reflexivity). assert (F : forallb (Nat.eqb m) ns = true) by (apply FB; intros k Hk; apply H; right; exact Hk). congruence.
  Qed.
  Notation psizes z := (tmap2 is_none (psize_leaf V asize) (axes z) (lw (fun p : PI => if is_arr (Leaf (fst p)) then Leaf (fst p) else TNone) z)).
  Lemma psizes_ok axs (z : tree PI) n : (exists sz, psizes z = Ok sz /\ batch_size axs (leaf_list sz) = Ok n) <-> sized n axs z.
  Proof.
    set (h := fun p : PI => match p with (Arr a, Some i) => got (asize a i) | _ => TNone end).
    assert (LH : forall k, In k (labels (lw h z)) <-> exists a i, In (Arr a, Some i) (labels z) /\ asize a i = Ok k).
    { intros k. rewrite labels_lw, in_flat_map. split.
      - intros ([[a|m|o] [i|]] & Hp & Hk); cbn in Hk; try contradiction. destruct (asize a i) as [y|e] eqn:E; [|contradiction]. destruct Hk as [<-|[]]. eauto.
      - intros (a & i & Hp & E). exists (Arr a, Some i). split; [exact Hp|]. cbn. rewrite E. left. reflexivity. }
    assert (FW : (forall a i, In (Arr a, Some i) (labels z) -> exists k, asize a i = Ok k) -> psizes z = Ok (lw h z)).
    { intros H. unfold axes. apply tmap2_lw_none; [reflexivity|]. intros [[a|m|o] [i|]] Hp; (split; [exact I|]); try reflexivity.
      destruct (H a i Hp) as [k Hk]. cbn. rewrite Hk. reflexivity. }
    split.
    - intros (sz & Hsz & Hb).
      assert (AS : forall a i, In (Arr a, Some i) (labels z) -> exists k, asize a i = Ok k).
      { intros a i Hp. unfold axes in Hsz. pose proof (fun S => tmap2_lw_none_inv _ _ _ _ _ S Hsz _ Hp) as X. destruct X as [y Hy]; [intros [l [j|]]; exact I|]. cbn in Hy.
        destruct (asize a i) as [k|e]; [eauto|discriminate]. }
      rewrite (FW AS) in Hsz. injection Hsz as <-. rewrite leaf_list_labels in Hb. apply batch_size_iff in Hb as [H1 H2]. split.
      + intros a i Hp. destruct (AS a i Hp) as [k Hk]. rewrite Hk. f_equal. apply H1, LH. eauto.
      + destruct H2 as [->|[-> H2]]; [left; reflexivity|right; split; [reflexivity|]]. destruct (labels (lw h z)) as [|k l] eqn:E; [congruence|].
        destruct (proj1 (LH k) (or_introl eq_refl)) as (a & i & Hp & _). eauto.
    - intros [H1 H2]. exists (lw h z). split; [apply FW; eauto|]. rewrite leaf_list_labels. apply batch_size_iff. split.
      + intros k Hk. apply LH in Hk as (a & i & Hp & Hk). rewrite (H1 a i Hp) in Hk. congruence.
      + destruct H2 as [->|[-> (a & i & Hp)]]; [left; reflexivity|right; split; [reflexivity|]]. intros E. assert (In n (labels (lw h z))) as Hn by (apply LH; eauto). rewrite E in Hn. contradiction.
  Qed.
  Lemma pspread n (z : tree PI) :
    (tdyn <- tmap2 is_none (pslice_leaf V atake n) (axes z) (lw (fun p : PI => if is_arr (Leaf (fst p)) then Leaf (fst p) else TNone) z) ;;
     eqx_combine no_leaf [tdyn; up (emb V) (lw (fun p : PI => if is_arr (Leaf (fst p)) then TNone else Leaf (fst p)) z)]) = Ok (spread n z).
  Proof.
    set (h := fun p : PI => if is_arr (Leaf (fst p)) then Leaf (spread1 n p) else TNone).
    unfold axes. rewrite (tmap2_lw_none _ _ _ h).
    2: reflexivity. 2: { intros [[a|m|o] [i|]] Hp; (split; [exact I|]); reflexivity. }
    cbn [bind]. unfold up. rewrite tmap_lw, lw_lw.
    match goal with |- eqx_combine _ [lw ?f z; lw ?g z] = _ => pose proof (combine_lw f [g] z) as E end.
    cbn [map] in E. rewrite E.
    - f_equal. unfold spread. apply lw_ext. intros [[a|m|o] [i|]]; reflexivity.
    - intros [[a|m|o] [i|]]; exact I.
  Qed.

  (** ** Theorems *)
  (** Exactly when there is a result, and which. *)
  Theorem C83_exact : forall params ia axis_size args r,
    pmap params ia axis_size args 0 = Ok r <->
    exists spec zi n zo,
      named_in_axes params ia (length args) = Ok spec /\
      values zi = Node tuple_kind args /\ resolves spec (Node tuple_kind args) (axes zi) /\
      sized n axis_size zi /\ fn (spread n zi) = Ok (values zo) /\
      resolves out_spec (values zo) (axes zo) /\ in_range zo /\ collected n zo r.
  Proof.
    intros params ia axs args r. unfold filter_pmap. change (0 <? 0) with false. cbv iota.
    set (argt := Node tuple_kind args). clearbody argt.
    assert (MAIN : forall zi, values zi = argt ->
      ('(dyn, sta) <- eqx_partition no_leaf TNone argt (Leaf (SCall is_arr)) ;;
       sizes <- tmap2 is_none (psize_leaf V asize) (axes zi) dyn ;;
       n <- batch_size axs (leaf_list sizes) ;;
       tdyn <- tmap2 is_none (pslice_leaf V atake n) (axes zi) dyn ;;
       targs <- eqx_combine no_leaf [tdyn; up (emb V) sta] ;;
       struct_out <- fn targs ;;
       out <- fn targs ;;
       outputs V astack amove of_num pick out_spec n (max_out_size V rank struct_out) out) = Ok r <->
      exists n zo, sized n axs zi /\ fn (spread n zi) = Ok (values zo) /\
      resolves out_spec (values zo) (axes zo) /\ in_range zo /\ collected n zo r).
    { intros zi <-. rewrite partition_is_arr. cbn [bind]. unfold values. rewrite !lw_lw. cbn [lw].
      assert (SP : forall n (K : tree (gleaf (bat V)) -> res (tree (gleaf V))),
        (tdyn <- tmap2 is_none (pslice_leaf V atake n) (axes zi) (lw (fun a => if is_arr (Leaf (fst a)) then Leaf (fst a) else TNone) zi) ;;
         targs <- eqx_combine no_leaf [tdyn; up (emb V) (lw (fun a => if is_arr (Leaf (fst a)) then TNone else Leaf (fst a)) zi)] ;; K targs) = K (spread n zi)).
      { intros n K. pose proof (pspread n zi) as E. destruct (tmap2 is_none (pslice_leaf V atake n) (axes zi) _) as [td|e]; [|discriminate E].
        cbn [bind] in *. rewrite E. reflexivity. }
      split.
      - intros H. apply bind_ok in H as (sz & Hsz & H). apply bind_ok in H as (n & Hn & H). rewrite SP in H.
        apply bind_ok in H as (out & Ho & H). rewrite Ho in H. cbn [bind] in H. apply outputs_ok in H as (zo & <- & H1 & H2 & H3).
        exists n, zo. split; [apply psizes_ok; eauto|]. auto.
      - intros (n & zo & Hs & Ho & H). apply psizes_ok in Hs as (sz & Hsz & Hb). rewrite Hsz. cbn [bind]. rewrite Hb. cbn [bind]. rewrite SP, Ho. cbn [bind].
        apply outputs_ok. exists zo. auto. }
    split.
    - intros H. apply bind_ok in H as (spec & Hs & H). apply bind_ok in H as (iax & Hi & H). apply resolve_iff in Hi.
      destruct (axes_at_paired _ _ (resolves_axes _ _ _ Hi)) as (zi & Hz & <-). apply (MAIN zi Hz) in H as (n & zo & H). exists spec, zi, n, zo. tauto.
    - intros (spec & zi & n & zo & Hs & Hz & Hi & H). rewrite Hs. cbn [bind]. rewrite (proj2 (resolve_iff _ _ _) Hi). cbn [bind]. apply (MAIN zi Hz). eauto.
  Qed.
  Theorem C83_kwargs : forall params ia axis_size args k, 0 < k -> pmap params ia axis_size args k = Err RuntimeError.
  Proof. intros. unfold filter_pmap. destruct (Nat.ltb_spec 0 k); [reflexivity|lia]. Qed.

  (** Device by device. Every leaf of the result comes with its axis and the values on the [n] devices: with an axis the slices of the result are these
      values (Python scalars become arrays); without, the result is one of them. *)
  Notation PW := (option Z * gleaf V * list (gleaf V))%type.
  Definition result_of (w : tree PW) : tree (gleaf V) := lw (fun q => Leaf (snd (fst q))) w.
  Definition on_device (i : nat) (w : tree PW) : tree (gleaf V) := lw (fun q => match nth_error (snd q) i with Some x => Leaf x | None => TNone end) w.
  Definition is_slice (a : V) (i : Z) (j : nat) (x : gleaf V) : Prop := x = Arr (atake a i j) \/ exists k, x = Num k /\ atake a i j = of_num k.
  Definition gathered (n : nat) (q : PW) : Prop :=
    match q with
    | (Some i, y, xs) => length xs = n /\ exists a, y = Arr a /\ forall j x, nth_error xs j = Some x -> is_slice a i j x
    | (None, y, xs) => length xs = n /\ (0 < n -> In y xs)
    end.
  Definition device_args (i : nat) (z : tree PI) : tree (gleaf V) :=
    lw (fun p => Leaf (match p with (Arr a, Some k) => Arr (atake a k i) | (l, _) => l end)) z.
  Theorem C83_devices : forall uniform fc, array_laws V asize atake astack amove uniform -> traces V uniform fn fc ->
    (forall l a, pick l = Ok a -> In a l) ->
    forall params ia axis_size args r, pmap params ia axis_size args 0 = Ok r ->
    exists spec zi n w, named_in_axes params ia (length args) = Ok spec /\ values zi = Node tuple_kind args /\ resolves spec (Node tuple_kind args) (axes zi) /\
      sized n axis_size zi /\ result_of w = r /\ (forall q, In q (labels w) -> gathered n q) /\
      forall i, i < n -> fc (device_args i zi) = Ok (on_device i w).
  Proof.
    intros uniform fc (L1 & L2 & L3 & L4) Htr Hpick params ia axs args r H. apply C83_exact in H as (spec & zi & n & zo & Hs & Hz & Hi & Hn & Ho & Hr & _ & [SU ->]).
    assert (BI : batched V uniform n (spread n zi)).
    { destruct Hn as [Hn _]. clear Hz Hi Ho. unfold spread. induction zi as [[[a|m|o] [i|]]| |k cs IH] using tree_ind'; cbn [lw]; try (constructor; cbn; intros l E; discriminate E).
      - constructor. intros l E. cbn in E. injection E as <-. rewrite map_length, seq_length. split; [reflexivity|]. apply L3. apply Hn. left. reflexivity.
      - constructor. apply Forall_map. cbn [labels] in Hn. induction IH as [|c cs Hc _ IHc]; constructor.
        + apply Hc. intros a i Ha. apply Hn. cbn [map concat]. apply in_or_app. auto.
        + apply IHc. intros a i Ha. apply Hn. cbn [map concat]. apply in_or_app. auto. }
    destruct (Htr n _ _ BI Ho) as [BO DEV].
    assert (BL : forall l o, In (Arr (Bat l), o) (labels zo) -> length l = n /\ uniform l).
    { clear - BO. unfold values in BO. induction zo as [[x o']| |k cs IH] using tree_ind'; cbn [lw labels] in *; intros l o Hl.
      - destruct Hl as [E|[]]. injection E as -> ->. inversion BO; subst. auto.
      - contradiction.
      - inversion BO as [| |? ? HF]; subst. rewrite Forall_map in HF. apply in_concat in Hl as (ls & Hls & Hl). apply in_map_iff in Hls as (c & <- & Hc).
        rewrite Forall_forall in *. eapply IH; eauto. }
    set (val := fun (x : gleaf (bat V)) (j : nat) => match x with
                 | Arr (Bat l) => match nth_error l j with Some a => Arr a | None => Obj 0 end
                 | Arr (Unb a) => Arr a | Num k => Num k | Obj m => Obj m end).
    set (row := fun x : gleaf (bat V) => map (val x) (seq 0 n)).
    set (toW := fun p : PO => match collect1 n p with Ok y => (snd p, y, row (fst p)) | Err _ => (snd p, Obj 0, []) end).
    exists spec, zi, n, (lw (fun p => Leaf (toW p)) zo).
    split; [exact Hs|]. split; [exact Hz|]. split; [exact Hi|]. split; [exact Hn|]. split; [|split].
    - unfold result_of. rewrite lw_lw. apply lw_ext_in. intros p Hp. cbn [lw]. destruct (SU p Hp) as [y Hy]. unfold toW. rewrite Hy. reflexivity.
    - intros q Hq. rewrite labels_lw in Hq. apply in_flat_map in Hq as (p & Hp & Hq). cbn [labels] in Hq. destruct Hq as [<-|[]]. destruct (SU p Hp) as [y Hy]. unfold toW. rewrite Hy.
      assert (LR : forall x, length (row x) = n) by (intros x; unfold row; rewrite map_length, seq_length; reflexivity).
      assert (NR : forall x j v, nth_error (row x) j = Some v -> j < n /\ v = val x j).
      { intros x j v Hv. assert (Hj : j < n) by (rewrite <- (LR x); apply nth_error_Some; congruence). split; [exact Hj|]. unfold row in Hv. rewrite nth_error_map in Hv.
        rewrite (nth_error_nth' _ 0) in Hv by (rewrite seq_length; exact Hj). rewrite seq_nth in Hv by exact Hj. cbn in Hv. congruence. }
      destruct p as [x [i|]]; cbn [snd fst gathered].
      + split; [apply LR|]. destruct x as [[a|l]|k|o]; cbn in Hy; try discriminate; apply rmap_ok in Hy as (b & Hb & ->); exists b; (split; [reflexivity|]); intros j v Hv; apply NR in Hv as [Hj ->].
        * left. cbn. rewrite (L4 (repeat a n) i b j) by (auto; rewrite repeat_length; exact Hj). rewrite (L1 (repeat a n) j a); auto. apply nth_error_repeat. exact Hj.
        * destruct (BL _ _ Hp) as [EL UL]. left. cbn. destruct (nth_error l j) as [a|] eqn:E; [|apply nth_error_None in E; lia].
          rewrite (L4 l i b j) by (auto; lia). rewrite (L1 l j a); auto.
        * right. exists k. split; [reflexivity|]. rewrite (L4 (repeat (of_num k) n) i b j) by (auto; rewrite repeat_length; exact Hj). rewrite (L1 _ j (of_num k)); auto. apply nth_error_repeat. exact Hj.
      + split; [apply LR|]. intros Hpos. unfold row. apply in_map_iff. destruct x as [[a|l]|k|o]; cbn in Hy.
        * injection Hy as <-. exists 0. split; [reflexivity|apply in_seq; lia].
        * apply rmap_ok in Hy as (b & Hb & ->). apply Hpick in Hb. apply In_nth_error in Hb as [j Hj]. destruct (BL _ _ Hp) as [EL _]. exists j. cbn. rewrite Hj. split; [reflexivity|].
          apply in_seq. split; [lia|]. rewrite <- EL. cbn. apply nth_error_Some. congruence.
        * injection Hy as <-. exists 0. split; [reflexivity|apply in_seq; lia].
        * injection Hy as <-. exists 0. split; [reflexivity|apply in_seq; lia].
    - intros i Hlt.
      assert (EI : elem_tree V i (spread n zi) (device_args i zi)).
      { clear - Hlt. unfold spread, device_args. induction zi as [[[a|m|o] [k|]]| |k cs IH] using tree_ind'; cbn [lw]; try (constructor; cbn; reflexivity).
        - constructor. cbn. rewrite nth_error_map. rewrite (nth_error_nth' _ 0) by (rewrite seq_length; exact Hlt). rewrite seq_nth by exact Hlt. reflexivity.
        - constructor. induction IH; cbn [map]; constructor; auto. }
      destruct (DEV i _ Hlt EI) as (o' & -> & EO). f_equal.
      assert (U : forall p, In p (labels zo) -> nth_error (snd (toW p)) i = Some (val (fst p) i)).
      { intros p Hp. destruct (SU p Hp) as [y Hy]. unfold toW. rewrite Hy. cbn [snd]. unfold row. rewrite nth_error_map.
        rewrite (nth_error_nth' _ 0) by (rewrite seq_length; exact Hlt). rewrite seq_nth by exact Hlt. reflexivity. }
      unfold on_device. rewrite lw_lw. rewrite (lw_ext_in _ (fun p => Leaf (val (fst p) i))).
      2: { intros p Hp. cbn [lw]. rewrite (U p Hp). reflexivity. }
      assert (BL' : forall l o, In (Arr (Bat l), o) (labels zo) -> length l = n) by (intros l o Hl; apply (BL l o Hl)).
      clear - EO Hlt BL'. unfold values in EO. revert o' EO. induction zo as [[x o]| |k cs IH] using tree_ind'; intros o' EO; cbn [lw] in *; inversion EO as [? y HE| |? ? ys HF]; subst.
      + f_equal. destruct x as [[a|l]|m|m], y as [b|m'|m']; cbn in HE |- *; try contradiction; try congruence. rewrite HE. reflexivity.
      + reflexivity.
      + f_equal. cbn [labels] in BL'. clear EO. revert ys HF. induction IH as [|c cs Hc _ IHc]; intros ys HF; inversion HF as [|? y ? ys' H1 H2]; subst; cbn [map]; [reflexivity|].
        f_equal.
        * apply Hc; [intros l o Hl; apply (BL' l o); cbn [map concat]; apply in_or_app; auto|exact H1].
        * apply IHc; [intros l o Hl; apply (BL' l o); cbn [map concat]; apply in_or_app; auto|exact H2].
  Qed.

  (** ** [filter_vmap] in the same words *)
  (** Everything with an axis must be an array; batched outputs must have an axis. *)
  Definition vsized (n : nat) (axis_size : option nat) (z : tree PI) : Prop :=
    (forall l i, In (l, Some i) (labels z) -> exists a, l = Arr a /\ asize a i = Ok n) /\
    (axis_size = Some n \/ axis_size = None /\ exists l i, In (l, Some i) (labels z)).
  Definition vcollected (n : nat) (z : tree PO) (r : tree (gleaf V)) : Prop :=
    (forall l, ~ In (Arr (Bat l), None) (labels z)) /\ collected n z r.
  Definition no_axes {X} (z : tree (gleaf X * option Z)) : Prop := forall l i, ~ In (l, Some i) (labels z).

  Lemma mapd_lw {X} (z : tree (gleaf X * option Z)) : mapd (values z) (axes z) = lw (fun p => match snd p with Some _ => Leaf (fst p) | None => TNone end) z.
  Proof.
    unfold values, axes. induction z as [[l [i|]]| |k cs IH] using tree_ind'; try reflexivity. cbn [lw]. rewrite mapd_node. f_equal.
    induction IH as [|c cs Hc _ IHc]; cbn [map zipw]; [reflexivity|]. rewrite Hc, IHc. reflexivity.
  Qed.
  Lemma keep_lw {X} (z : tree (gleaf X * option Z)) : keep (values z) (axes z) = lw (fun p => match snd p with Some _ => TNone | None => Leaf (fst p) end) z.
  Proof.
    unfold values, axes. induction z as [[l [i|]]| |k cs IH] using tree_ind'; try reflexivity. cbn [lw]. rewrite keep_node. f_equal.
    induction IH as [|c cs Hc _ IHc]; cbn [map zipw]; [reflexivity|]. rewrite Hc, IHc. reflexivity.
  Qed.
  Lemma axes_at_self {X} (z : tree (gleaf X * option Z)) : axes_at (values z) (axes z).
  Proof.
    unfold values, axes. induction z as [[l [i|]]| |k cs IH] using tree_ind'; cbn [lw]; try constructor. induction IH as [|c cs Hc _ IHc]; cbn [map]; constructor; auto.
  Qed.
  Lemma tmap2_lw_inv {A B C D} (F : tree B -> tree C -> res (tree D)) (f : A -> tree B) (g : A -> tree C) (t : tree A) u :
    tmap2 no_leaf F (lw f t) (lw g t) = Ok u -> forall a x, In a (labels t) -> f a = Leaf x -> exists y, F (Leaf x) (g a) = Ok y.
  Proof.
    revert u. induction t as [a| |k cs IH] using tree_ind'; intros u H b x Hb Hx; cbn [lw labels] in *.
    - destruct Hb as [<-|[]]. rewrite Hx in H. eexists. exact H.
    - contradiction.
    - cbn [tmap2 no_leaf] in H. rewrite Nat.eqb_refl in H. apply rmap_ok in H as (us & H & ->). revert us H.
      induction IH as [|c cs Hc _ IHc]; intros us H; cbn [map zipM concat] in *; [contradiction|].
      apply bind_ok in H as (v & Hv & H). apply bind_ok in H as (vs & Hvs & H). apply in_app_or in Hb as [Hb|Hb]; eauto.
  Qed.
  Lemma vsizes_ok axs (z : tree PI) n : (axs <> None \/ exists l i, In (l, Some i) (labels z)) ->
    (exists sz, tmap2 is_none (size_leaf V asize) (axes z) (mapd (values z) (axes z)) = Ok sz /\ batch_size axs (leaf_list sz) = Ok n) <-> vsized n axs z.
  Proof.
    intros HX. rewrite mapd_lw. set (md := fun p : PI => match snd p with Some _ => Leaf (fst p) | None => TNone end : tree (gleaf V)).
    set (h := fun p : PI => match p with (Arr a, Some i) => got (asize a i) | _ => TNone end).
    assert (LH : forall k, In k (labels (lw h z)) <-> exists a i, In (Arr a, Some i) (labels z) /\ asize a i = Ok k).
    { intros k. rewrite labels_lw, in_flat_map. split.
      - intros ([[a|m|o] [i|]] & Hp & Hk); cbn in Hk; try contradiction. destruct (asize a i) as [y|e] eqn:E; [|contradiction]. destruct Hk as [<-|[]]. eauto.
      - intros (a & i & Hp & E). exists (Arr a, Some i). split; [exact Hp|]. cbn. rewrite E. left. reflexivity. }
    assert (FW : (forall l i, In (l, Some i) (labels z) -> exists a k, l = Arr a /\ asize a i = Ok k) -> tmap2 is_none (size_leaf V asize) (axes z) (lw md z) = Ok (lw h z)).
    { intros H. unfold axes. apply tmap2_lw_none; [reflexivity|]. intros [l [i|]] Hp; (split; [exact I|]).
      - destruct (H l i Hp) as (a & k & -> & Hk). cbn. rewrite Hk. reflexivity.
      - destruct l; reflexivity. }
    split.
    - intros (sz & Hsz & Hb).
      assert (AS : forall l i, In (l, Some i) (labels z) -> exists a k, l = Arr a /\ asize a i = Ok k).
      { intros l i Hp. unfold axes in Hsz. pose proof (fun S => tmap2_lw_none_inv _ _ _ _ _ S Hsz _ Hp) as X. destruct X as [y Hy]; [intros [l' [j|]]; exact I|]. cbn in Hy.
        destruct l as [a|m|o]; try discriminate. destruct (asize a i) as [k|e] eqn:E; [eauto|discriminate]. }
      rewrite (FW AS) in Hsz. injection Hsz as <-. rewrite leaf_list_labels in Hb. apply batch_size_iff in Hb as [H1 H2]. split.
      + intros l i Hp. destruct (AS l i Hp) as (a & k & -> & Hk). exists a. split; [reflexivity|]. rewrite Hk. f_equal. apply H1, LH. eauto.
      + destruct H2 as [->|[-> H2]]; [left; reflexivity|right; split; [reflexivity|]]. destruct HX as [HX|HX]; [congruence|exact HX].
    - intros [H1 H2]. exists (lw h z). split; [apply FW; intros l i Hp; destruct (H1 l i Hp) as (a & -> & E); eauto|]. rewrite leaf_list_labels. apply batch_size_iff. split.
      + intros k Hk. apply LH in Hk as (a & i & Hp & Hk). destruct (H1 _ _ Hp) as (a' & E & Ha). injection E as <-. congruence.
      + destruct H2 as [->|[-> (l & i & Hp)]]; [left; reflexivity|right; split; [reflexivity|]]. destruct (H1 _ _ Hp) as (a & -> & Ha). intros E.
        assert (In n (labels (lw h z))) as Hn by (apply LH; eauto). rewrite E in Hn. contradiction.
  Qed.
  Lemma vspread n (z : tree PI) : (forall l i, In (l, Some i) (labels z) -> exists a, l = Arr a) ->
    exists td, tmap2 is_none (slice_leaf V atake n) (axes z) (mapd (values z) (axes z)) = Ok td /\ eqx_combine no_leaf [td; up (emb V) (keep (values z) (axes z))] = Ok (spread n z).
  Proof.
    intros HA. rewrite mapd_lw, keep_lw. set (md := fun p : PI => match snd p with Some _ => Leaf (fst p) | None => TNone end : tree (gleaf V)).
    set (h := fun p : PI => match snd p with Some _ => Leaf (spread1 n p) | None => TNone end).
    exists (lw h z). split.
    - unfold axes. apply tmap2_lw_none; [reflexivity|]. intros [l [i|]] Hp; (split; [exact I|]).
      + destruct (HA l i Hp) as (a & ->). reflexivity.
      + reflexivity.
    - unfold up. rewrite tmap_lw, lw_lw.
      match goal with |- eqx_combine _ [lw ?f z; lw ?g z] = _ => pose proof (combine_lw f [g] z) as E end.
      cbn [map] in E. rewrite E.
      + f_equal. unfold spread. apply lw_ext. intros [[a|m|o] [i|]]; reflexivity.
      + intros [[a|m|o] [i|]]; exact I.
  Qed.
  Notation vchain n z := (v <- upM (stack_leaf V astack of_num n) (mapd (values z) (axes z)) ;;
     nva <- upM (unb_leaf V) (tmap no_leaf (fun s => if is_arr s then s else TNone) (keep (values z) (axes z))) ;;
     nvs <- upM (unb_leaf V) (tmap no_leaf (fun s => if is_arr s then TNone else s) (keep (values z) (axes z))) ;;
     finish V amove v nva nvs (axes z)).
  Lemma voutputs_ok n (z : tree PO) r : vchain n z = Ok r <-> vcollected n z r.
  Proof.
    pose proof (axes_at_self z) as HA.
    set (md := fun p : PO => match snd p with Some _ => Leaf (fst p) | None => TNone end : tree (gleaf (bat V))).
    set (ka := fun p : PO => match p with (Arr b, None) => Leaf (Arr b) | _ => TNone end : tree (gleaf (bat V))).
    set (ks := fun p : PO => match p with (Arr b, _) => TNone | (l, None) => Leaf l | _ => TNone end : tree (gleaf (bat V))).
    assert (Em : mapd (values z) (axes z) = lw md z) by apply mapd_lw.
    assert (Ea : tmap no_leaf (fun s => if is_arr s then s else TNone) (keep (values z) (axes z)) = lw ka z).
    { rewrite keep_lw, tmap_lw, lw_lw. apply lw_ext. intros [[b|k|o] [i|]]; reflexivity. }
    assert (Es : tmap no_leaf (fun s => if is_arr s then TNone else s) (keep (values z) (axes z)) = lw ks z).
    { rewrite keep_lw, tmap_lw, lw_lw. apply lw_ext. intros [[b|k|o] [i|]]; reflexivity. }
    rewrite Em, Ea, Es.
    assert (Sm : forall p, small (md p)) by (intros [l [i|]]; exact I). assert (Sa : forall p, small (ka p)) by (intros [[b|k|o] [i|]]; exact I). assert (Ss : forall p, small (ks p)) by (intros [[b|k|o] [i|]]; exact I).
    set (hv := fun p => match md p with Leaf x => got (stack_leaf V astack of_num n x) | _ => TNone end).
    set (ha := fun p => match ka p with Leaf x => got (unb_leaf V x) | _ => TNone end).
    set (hs := fun p => match ks p with Leaf x => got (unb_leaf V x) | _ => TNone end).
    split.
    - intros H. apply bind_ok in H as (v & Hv & H). apply bind_ok in H as (nva & Hnva & H). apply bind_ok in H as (nvs & Hnvs & H).
      unfold finish in H. apply bind_ok in H as (nv & Hnv & H). apply bind_ok in H as (u & _ & H). apply bind_ok in H as (v' & Hv' & H).
      apply upM_lw in Hv as [V1 ->]; [|exact Sm]. apply upM_lw in Hnva as [A1 ->]; [|exact Sa]. apply upM_lw in Hnvs as [B1 ->]; [|exact Ss]. fold hv in Hv'. fold ha hs in Hnv.
      set (hm := fun p : PO => match p with (_, Some _) => got (collect1 n p) | _ => TNone end).
      assert (NB : forall l, ~ In (Arr (Bat l), None) (labels z)).
      { intros l Hl. destruct (A1 (Arr (Bat l), None) (Arr (Bat l)) Hl eq_refl) as [y Hy]. discriminate. }
      assert (SU : forall p, In p (labels z) -> exists y, collect1 n p = Ok y).
      { intros [x [i|]] Hp.
        - destruct (V1 (x, Some i) x Hp eq_refl) as [y Hy]. unfold axes in Hv'.
          destruct (tmap2_lw_inv _ _ _ _ _ Hv' (x, Some i) y Hp) as [w Hw]; [unfold hv, md; cbn [snd fst]; rewrite Hy; reflexivity|]. cbn [snd of_opt move_leaf] in Hw.
          destruct x as [[a|l]|k|o]; cbn in Hy; try discriminate; injection Hy as <-; apply rmap_ok in Hw as (b & Hb & ->); cbn; rewrite Hb; cbn; eauto.
        - destruct x as [[a|l]|k|o]; cbn; eauto. exfalso. exact (NB l Hp). }
      split; [exact NB|]. split; [exact SU|].
      assert (v' = lw hm z) as ->.
      { unfold axes in Hv'. rewrite (tmap2_lw _ hv _ hm) in Hv'; [injection Hv' as <-; reflexivity|]. intros [x [i|]] Hp; [|cbn; auto].
        destruct (SU _ Hp) as [y Hy]. unfold hm. rewrite Hy. destruct x as [[a|l]|k|o]; cbn in Hy |- *; try discriminate; apply rmap_ok in Hy as (b & -> & ->); reflexivity. }
      pose proof (combine_lw ha [hs] z) as E. cbn [map] in E. rewrite E in Hnv. 2: { intros p. unfold ha. destruct (ka p); try exact I. apply got_small. }
      assert (nv = lw (fun p => combine_args [ha p; hs p]) z) as -> by congruence. pose proof (combine_lw hm [fun p => combine_args [ha p; hs p]] z) as E'. cbn [map] in E'. rewrite E' in H.
      2: { intros [x [i|]]; unfold hm; [apply got_small|exact I]. }
      injection H as <-. apply lw_ext_in. intros p Hp. destruct (SU p Hp) as [y Hy]. unfold hm. destruct p as [x [i|]]; rewrite Hy; [reflexivity|].
      destruct x as [[a|l]|k|o]; cbn in Hy |- *; try (injection Hy as <-; reflexivity). exfalso. exact (NB l Hp).
    - intros (NB & SU & ->).
      rewrite (proj2 (upM_lw _ md z (lw hv z) Sm)).
      2: { split; [|reflexivity]. intros [x [i|]] y Hp Hx; cbn in Hx; [injection Hx as <-|discriminate]. destruct (SU _ Hp) as [w Hw]. destruct x as [[a|l]|k|o]; cbn in *; eauto. }
      cbn [bind]. rewrite (proj2 (upM_lw _ ka z (lw ha z) Sa)).
      2: { split; [|reflexivity]. intros [[b|k|o] [i|]] y Hp Hx; cbn in Hx; try discriminate. injection Hx as <-. destruct b as [a|l]; [cbn; eauto|]. exfalso. exact (NB l Hp). }
      cbn [bind]. rewrite (proj2 (upM_lw _ ks z (lw hs z) Ss)).
      2: { split; [|reflexivity]. intros [[b|k|o] [i|]] y Hp Hx; cbn in Hx; try discriminate; injection Hx as <-; cbn; eauto. }
      cbn [bind]. unfold finish.
      pose proof (combine_lw ha [hs] z) as E. cbn [map] in E. rewrite E; clear E. 2: { intros p. unfold ha. destruct (ka p); try exact I. apply got_small. }
      cbn [bind].
      assert (DEF : def_eqb (treedef no_leaf (lw hv z)) (treedef no_leaf (axes z)) = true).
      { apply (def_ok V astack of_num n (values z)); [exact HA|]. rewrite Em. apply upM_lw; [exact Sm|]. split; [|reflexivity].
        intros [x [i|]] y Hp Hx; cbn in Hx; [injection Hx as <-|discriminate]. destruct (SU _ Hp) as [w Hw]. destruct x as [[a|l]|k|o]; cbn in *; eauto. }
      rewrite DEF. cbn [bind].
      set (hm := fun p : PO => match p with (_, Some _) => got (collect1 n p) | _ => TNone end).
      unfold axes. rewrite (tmap2_lw _ hv _ hm).
      2: { intros [x [i|]] Hp; [|cbn; auto].
           destruct (SU _ Hp) as [y Hy]. unfold hm. rewrite Hy. destruct x as [[a|l]|k|o]; cbn in Hy |- *; try discriminate; apply rmap_ok in Hy as (b & -> & ->); reflexivity. }
      cbn [bind]. pose proof (combine_lw hm [fun p => combine_args [ha p; hs p]] z) as E'. cbn [map] in E'. rewrite E'.
      2: { intros [x [i|]]; unfold hm; [apply got_small|exact I]. }
      f_equal. apply lw_ext_in. intros p Hp. destruct (SU p Hp) as [y Hy]. unfold hm. destruct p as [x [i|]]; rewrite Hy; [reflexivity|].
      destruct x as [[a|l]|k|o]; cbn in Hy |- *; try (injection Hy as <-; reflexivity). exfalso. exact (NB l Hp).
  Qed.
  Lemma wrapper_eq sta dyn args : eqx_combine no_leaf [dyn; sta] = Ok args -> forall B (K : wrapped V -> res B) b,
    (w <- fun_wrapper V fn out_spec sta dyn ;; K w) = Ok b <->
    exists zo, fn args = Ok (values zo) /\ resolves out_spec (values zo) (axes zo) /\
      K {| w_vmapd := mapd (values zo) (axes zo); w_arr := tmap no_leaf (fun s => if is_arr s then s else TNone) (keep (values zo) (axes zo));
           w_static := tmap no_leaf (fun s => if is_arr s then TNone else s) (keep (values zo) (axes zo)); w_axes := axes zo |} = Ok b.
  Proof.
    intros HC B K b. split.
    - intros H. apply bind_ok in H as (w & Hw & H). destruct (wrapper_inv _ _ _ _ _ _ _ HC Hw) as (out & oax & Ho & Hr & ->).
      destruct (axes_at_paired _ _ (resolves_axes _ _ _ Hr)) as (zo & <- & <-). eauto.
    - intros (zo & Ho & Hr & H). unfold fun_wrapper. rewrite HC. cbn [bind]. rewrite Ho. cbn [bind]. rewrite (proj2 (resolve_iff _ _ _) Hr). cbn [bind].
      rewrite (partition_axes is_none) by auto using axes_at_self. cbn [bind]. rewrite partition_is_arr. cbn [bind]. rewrite !tmap_lw in H. exact H.
  Qed.
  Lemma axes_leaves {X} (z : tree (gleaf X * option Z)) : leaves no_leaf (axes z) = [] <-> no_axes z.
  Proof.
    rewrite leaves_labels. split.
    - intros H l i Hl. assert (In i (labels (axes z))) as Hi by (apply labels_axes; exists (l, Some i); auto). destruct (labels (axes z)); [contradiction|discriminate].
    - intros H. destruct (labels (axes z)) as [|i l] eqn:E; [reflexivity|]. exfalso. assert (In i (labels (axes z))) as Hi by (rewrite E; left; reflexivity). apply labels_axes in Hi as ([x o] & Hp & Hs). cbn in Hs. subst o. exact (H x i Hp).
  Qed.
  Lemma mapd_leaves' {X} (z : tree (gleaf X * option Z)) : leaves no_leaf (mapd (values z) (axes z)) = [] <-> no_axes z.
  Proof.
    rewrite mapd_lw, leaves_labels. set (md := fun p : gleaf X * option Z => match snd p with Some _ => Leaf (fst p) | None => TNone end).
    assert (L : forall x, In x (labels (lw md z)) <-> exists i, In (x, Some i) (labels z)).
    { intros x. rewrite labels_lw, in_flat_map. split.
      - intros ([y [i|]] & Hp & Hx); cbn in Hx; [destruct Hx as [<-|[]]; eauto|contradiction].
      - intros (i & Hp). exists (x, Some i). split; [exact Hp|left; reflexivity]. }
    split.
    - intros H l i Hl. assert (In l (labels (lw md z))) as Hi by (apply L; eauto). destruct (labels (lw md z)); [contradiction|discriminate].
    - intros H. destruct (labels (lw md z)) as [|x l] eqn:E; [reflexivity|]. exfalso. destruct (proj1 (L x)) as [i Hi]; [left; reflexivity|]. exact (H x i Hi).
  Qed.
  (** Exactly when [filter_vmap] has a result, and which. Without [axis_size] and axes the function is called as it is. *)
  Theorem C31_exact : forall params ia axis_size args r,
    vmap params ia axis_size args 0 = Ok r <->
    exists spec zi n zo,
      named_in_axes params ia (length args) = Ok spec /\
      values zi = Node tuple_kind args /\ resolves spec (Node tuple_kind args) (axes zi) /\
      (vsized n axis_size zi \/ axis_size = None /\ no_axes zi /\ no_axes zo) /\ fn (spread n zi) = Ok (values zo) /\
      resolves out_spec (values zo) (axes zo) /\ vcollected n zo r.
  Proof.
    intros params ia axs args r. unfold filter_vmap. change (0 <? 0) with false. cbv iota.
    set (argt := Node tuple_kind args). clearbody argt.
    assert (MAIN : forall zi, values zi = argt ->
      ('(sta, dyn) <- eqx_partition no_leaf TNone argt (mask_spec (axes zi)) ;;
       match leaves no_leaf (axes zi), axs with
       | [], None => w <- fun_wrapper V fn out_spec (up (emb V) sta) (up (emb V) dyn) ;;
           match leaves no_leaf (w_vmapd V w) with
           | [] => v <- upM (unb_leaf V) (w_vmapd V w) ;; nva <- upM (unb_leaf V) (w_arr V w) ;; nvs <- upM (unb_leaf V) (w_static V w) ;; finish V amove v nva nvs (w_axes V w)
           | _ => Err ValueError
           end
       | _, _ => sizes <- tmap2 is_none (size_leaf V asize) (axes zi) dyn ;;
           n <- batch_size axs (leaf_list sizes) ;;
           tdyn <- tmap2 is_none (slice_leaf V atake n) (axes zi) dyn ;;
           w <- fun_wrapper V fn out_spec (up (emb V) sta) tdyn ;;
           v <- upM (stack_leaf V astack of_num n) (w_vmapd V w) ;; nva <- upM (unb_leaf V) (w_arr V w) ;; nvs <- upM (unb_leaf V) (w_static V w) ;;
           finish V amove v nva nvs (w_axes V w)
       end) = Ok r <->
      exists n zo, (vsized n axs zi \/ axs = None /\ no_axes zi /\ no_axes zo) /\ fn (spread n zi) = Ok (values zo) /\
        resolves out_spec (values zo) (axes zo) /\ vcollected n zo r).
    { intros zi <-. rewrite (partition_axes no_leaf) by auto using axes_at_self. cbn [bind].
      assert (MAPPED : (axs <> None \/ exists l i, In (l, Some i) (labels zi)) ->
        ((sizes <- tmap2 is_none (size_leaf V asize) (axes zi) (mapd (values zi) (axes zi)) ;;
           n <- batch_size axs (leaf_list sizes) ;;
           tdyn <- tmap2 is_none (slice_leaf V atake n) (axes zi) (mapd (values zi) (axes zi)) ;;
           w <- fun_wrapper V fn out_spec (up (emb V) (keep (values zi) (axes zi))) tdyn ;;
           v <- upM (stack_leaf V astack of_num n) (w_vmapd V w) ;; nva <- upM (unb_leaf V) (w_arr V w) ;; nvs <- upM (unb_leaf V) (w_static V w) ;;
           finish V amove v nva nvs (w_axes V w)) = Ok r <->
         exists n zo, vsized n axs zi /\ fn (spread n zi) = Ok (values zo) /\ resolves out_spec (values zo) (axes zo) /\ vcollected n zo r)).
      { intros HX. split.
        - intros H. apply bind_ok in H as (sz & Hsz & H). apply bind_ok in H as (n & Hn & H). apply bind_ok in H as (td & Htd & H).
          assert (VS : vsized n axs zi) by (apply vsizes_ok; eauto).
          destruct (vspread n zi) as (td' & Htd' & HC). { intros l i Hl. destruct (proj1 VS l i Hl) as (a & -> & _). eauto. }
          rewrite Htd in Htd'. injection Htd' as <-. apply (wrapper_eq _ _ _ HC) in H as (zo & Ho & Hr & H). cbn [w_vmapd w_arr w_static w_axes] in H. apply voutputs_ok in H. eauto 6.
        - intros (n & zo & VS & Ho & Hr & Hc). destruct (proj2 (vsizes_ok axs zi n HX) VS) as (sz & -> & Hb). cbn [bind]. rewrite Hb. cbn [bind].
          destruct (vspread n zi) as (td' & -> & HC). { intros l i Hl. destruct (proj1 VS l i Hl) as (a & -> & _). eauto. }
          cbn [bind]. apply (wrapper_eq _ _ _ HC). exists zo. split; [exact Ho|]. split; [exact Hr|]. cbn [w_vmapd w_arr w_static w_axes]. apply voutputs_ok. exact Hc. }
      assert (NX : ~ no_axes zi -> exists l i, In (l, Some i) (labels zi)).
      { intros N. rewrite <- axes_leaves, leaves_labels in N. destruct (labels (axes zi)) as [|i l] eqn:E; [exfalso; apply N; reflexivity|].
        assert (In i (labels (axes zi))) as Hi by (rewrite E; left; reflexivity). apply labels_axes in Hi as ([x o] & Hp & Hs). cbn in Hs. subst o. eauto. }
      destruct (leaves no_leaf (axes zi)) as [|x xs] eqn:EL.
      - apply axes_leaves in EL. destruct axs as [m|].
        + rewrite MAPPED by (left; discriminate). split; intros (n & zo & H); exists n, zo; [tauto|]. destruct H as [[H|[H _]] H']; [tauto|discriminate].
        + clear MAPPED NX.
          assert (SPR : forall n, up (emb V) (values zi) = spread n zi).
          { intros n. unfold up, values, spread. rewrite tmap_lw, lw_lw. apply lw_ext_in. intros [l [i|]] Hp; [exfalso; exact (EL l i Hp)|]. destruct l; reflexivity. }
          assert (HC : eqx_combine no_leaf [up (emb V) (mapd (values zi) (axes zi)); up (emb V) (keep (values zi) (axes zi))] = Ok (up (emb V) (values zi))) by (apply combine_emb; apply axes_at_self).
          split.
          * intros H. apply (wrapper_eq _ _ _ HC) in H as (zo & Ho & Hr & H). cbn [w_vmapd w_arr w_static w_axes] in H.
            destruct (leaves no_leaf (mapd (values zo) (axes zo))) eqn:EM; [|discriminate]. rewrite (upM_none _ (stack_leaf V astack of_num 0)) in H by exact EM.
            apply mapd_leaves' in EM. apply voutputs_ok in H. exists 0, zo. rewrite <- SPR. split; [right; auto|]. auto.
          * intros (n & zo & H1 & Ho & Hr & Hc). rewrite <- SPR in Ho. apply (wrapper_eq _ _ _ HC). exists zo. split; [exact Ho|]. split; [exact Hr|]. cbn [w_vmapd w_arr w_static w_axes].
            destruct H1 as [[_ [H|[_ (l & i & H)]]]|(_ & _ & NO)]; [discriminate|exfalso; exact (EL l i H)|].
            apply mapd_leaves' in NO. rewrite NO. rewrite (upM_none _ (stack_leaf V astack of_num n)) by exact NO. apply voutputs_ok. exact Hc.
      - assert (NA : ~ no_axes zi) by (intros N; apply axes_leaves in N; congruence). destruct axs as [m|]; (rewrite MAPPED by (right; apply NX, NA)); (split; intros (n & zo & H); exists n, zo; [tauto|]; destruct H as [[H|(_ & H & _)] H']; [tauto|contradiction]). }
    split.
    - intros H. apply bind_ok in H as (spec & Hs & H). apply bind_ok in H as (iax & Hi & H). apply resolve_iff in Hi.
      destruct (axes_at_paired _ _ (resolves_axes _ _ _ Hi)) as (zi & Hz & <-). apply (MAIN zi Hz) in H as (n & zo & H). exists spec, zi, n, zo. tauto.
    - intros (spec & zi & n & zo & Hs & Hz & Hi & H). rewrite Hs. cbn [bind]. rewrite (proj2 (resolve_iff _ _ _) Hi). cbn [bind]. apply (MAIN zi Hz). eauto.
  Qed.

  (** [filter_pmap] does what [filter_vmap] does wherever the latter has a result and something is mapped. *)
  Definition rank_laws : Prop :=
    (forall l i b, amove (astack l) i = Ok b -> (- Z.of_nat (S (rank (Bat l))) <= i < Z.of_nat (S (rank (Bat l))))%Z) /\
    (forall a n i b, amove (astack (repeat a n)) i = Ok b -> (- Z.of_nat (S (rank (Unb a))) <= i < Z.of_nat (S (rank (Unb a))))%Z) /\
    (forall k n i b, amove (astack (repeat (of_num k) n)) i = Ok b -> (-1 <= i < 1)%Z).
  Theorem C83_agrees : rank_laws -> forall params ia axis_size args r, vmap params ia axis_size args 0 = Ok r ->
    (exists n, axis_size = Some n) \/ (exists spec ax, named_in_axes params ia (length args) = Ok spec /\ resolve_axes (Node tuple_kind args) spec = Ok ax /\ leaves no_leaf ax <> []) ->
    pmap params ia axis_size args 0 = Ok r.
  Proof.
    intros (R1 & R2 & R3) params ia axs args r H HM. apply C31_exact in H as (spec & zi & n & zo & Hs & Hz & Hi & HV & Ho & Hr & NB & SU & ->).
    destruct HV as [[S1 S2]|(-> & NA & _)].
    - apply C83_exact. exists spec, zi, n, zo. do 3 (split; [assumption|]). split; [|split; [exact Ho|split; [exact Hr|split; [|split; [exact SU|reflexivity]]]]].
      + split.
        * intros a i Hp. destruct (S1 _ _ Hp) as (a' & E & Ha). injection E as <-. exact Ha.
        * destruct S2 as [->|[-> (l & i & Hp)]]; [left; reflexivity|right; split; [reflexivity|]]. destruct (S1 _ _ Hp) as (a & -> & _). eauto.
      + intros [x o] i Hp E. cbn in E. subst o. exists (x, Some i). split; [exact Hp|]. cbn [fst]. destruct (SU _ Hp) as [y Hy].
        destruct x as [[a|l]|k|o]; cbn in Hy; try discriminate; apply rmap_ok in Hy as (b & Hb & ->); rewrite !dims_rank; cbn [out_rank]; eauto.
    - exfalso. destruct HM as [[m Hm]|(spec' & ax & Hs' & Ha & HL)]; [discriminate|]. rewrite Hs in Hs'. injection Hs' as <-. rewrite (proj2 (resolve_iff _ _ _) Hi) in Ha. injection Ha as <-.
      apply HL, axes_leaves, NA.
  Qed.
End Props.
Print Assumptions C83_exact.
Print Assumptions C83_kwargs.
Print Assumptions C83_devices.
Print Assumptions C31_exact.
Print Assumptions C83_agrees.

(** *** The nested lists of Vmap_Props.v; the number of dimensions is that of the first element. *)
Fixpoint ndims (a : arr) : nat := match a with Sc _ => 0 | Rw [] => 1 | Rw (b :: _) => S (ndims b) end.
Definition i_rank (b : bat arr) : nat := match b with Unb a => ndims a | Bat l => ndims (Rw l) - 1 end.
Definition d_move (a : arr) (z : Z) : res arr := if (z <? Z.of_nat (ndims a))%Z then i_move a z else Err ValueError.
Definition i_pick (l : list arr) : res arr := match l with a :: _ => Ok a | [] => Err IndexError end.
Example C83_laws_ex : array_laws arr i_size i_take Rw d_move any /\ rank_laws arr Rw d_move Sc i_rank /\ forall l a, i_pick l = Ok a -> In a l.
Proof.
  assert (D : forall a z b, d_move a z = Ok b -> i_move a z = Ok b /\ (0 <= z < Z.of_nat (ndims a))%Z).
  { intros a z b. unfold d_move, i_move, on_axis. destruct (Z.ltb_spec z (Z.of_nat (ndims a))); [|discriminate]. destruct (Z.ltb_spec z 0); [discriminate|]. intros H1. split; [exact H1|lia]. }
  split; [|split].
  - destruct C31_laws_ex as (L1 & L2 & L3 & L4). split; [exact L1|]. split; [exact L2|]. split; [exact L3|]. intros l z b i Hu Hi H. apply D in H as [H _]. apply (L4 l z b i Hu Hi H).
  - split; [|split].
    + intros l i b H. apply D in H as [_ H]. unfold i_rank. assert (0 < ndims (Rw l)) by (destruct l; cbn; lia). lia.
    + intros a n i b H. apply D in H as [_ H]. unfold i_rank. destruct n; cbn in H; lia.
    + intros k n i b H. apply D in H as [_ H]. destruct n; cbn in H; lia.
  - intros [|x l] a H; [discriminate|]. injection H as <-. left. reflexivity.
Qed.
Notation ex_pmap := (filter_pmap arr i_size i_take Rw d_move Sc i_rank i_pick).
Notation ex_vmap := (filter_vmap arr i_size i_take Rw d_move Sc).
Definition ex_mat : arr := Rw [Rw [Sc 1; Sc 2; Sc 3]; Rw [Sc 4; Sc 5; Sc 6]].
Example C83_ex :
  ex_pmap ex_fn (Node 0 [Leaf (if_array 0); Leaf (AInt 1); TNone]) [] (InTree (Node 0 [Leaf (AInt 0); TNone; Leaf (if_array 0)])) None
     [Leaf (Arr ex_mat); Leaf (Arr ex_mat); Leaf (Obj 7)] 0 = Ok (Node 0 [Leaf (Obj 7); Leaf (Arr (Rw [Rw [Sc 1; Sc 4]; Rw [Sc 2; Sc 5]; Rw [Sc 3; Sc 6]])); Leaf (Arr ex_mat)]) /\
  (* no such dimension; nothing is mapped; sizes differ *)
  ex_pmap ex_fn (Node 0 [Leaf (if_array 0); Leaf (AInt 3); TNone]) [] (InTree (Leaf (if_array 0))) None [Leaf (Arr ex_mat); Leaf (Arr ex_mat); Leaf (Obj 7)] 0 = Err ValueError /\
  ex_pmap ex_fn TNone [] (InTree TNone) None [Leaf (Arr ex_mat); Leaf (Arr ex_mat); Leaf (Obj 7)] 0 = Err ValueError /\
  ex_pmap ex_fn (Leaf (if_array 0)) [] (InTree (Node 0 [Leaf (AInt 0); Leaf (AInt 1); TNone])) None [Leaf (Arr ex_mat); Leaf (Arr ex_mat); Leaf (Obj 7)] 0 = Err ValueError.
Proof. split; [|split; [|split]]; vm_compute; reflexivity. Qed.

(** It also has results where [filter_vmap] has none: an integer axis for an argument that is not an array is ignored, and of a batched output
    without an axis one device's value is returned. *)
Theorem C83_same_as_vmap_refuted :
  exists fn args,
    (exists out_spec ia r, ex_pmap fn out_spec [] ia None args 0 = Ok r /\ ex_vmap fn out_spec [] ia None args 0 = Err ValueError /\ ia = InTree (Leaf (AInt 0))) /\
    (exists out_spec ia r, ex_pmap fn out_spec [] ia None args 0 = Ok r /\ ex_vmap fn out_spec [] ia None args 0 = Err ValueError /\ out_spec = TNone).
Proof.
  exists ex_fn, [Leaf (Arr ex_mat); Leaf (Arr ex_mat); Leaf (Obj 7)]. split.
  - exists (Leaf (if_array 0)), (InTree (Leaf (AInt 0))). eexists. split; [vm_compute; reflexivity|]. split; [vm_compute; reflexivity|reflexivity].
  - exists TNone, (InTree (Leaf (if_array 0))). eexists. split; [vm_compute; reflexivity|]. split; [vm_compute; reflexivity|reflexivity].
Qed.
Print Assumptions C83_same_as_vmap_refuted.
