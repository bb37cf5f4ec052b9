(** C55: filtered differentiation. *)
From Verif Require Import Filters_Proofs Tree_Rel Prim_Spec Prim_Proofs Ad_Model.

Section Fills.
  Context {L : Type}.
  Implicit Types (x y : tree L) (vs : list (tree L)).

  (** Unflattening with the structure of the dynamic part puts [None] at the static leaves. *)
  Lemma fills_dyn_def (g : L -> bool) :
    (forall x vs y, fills g (fun _ => TNone) x vs y ->
       forall rest, unflat (treedef no_leaf (dynp g x)) (vs ++ rest) = Ok (y, rest)) /\
    (forall cs vs ds, fills_list g (fun _ => TNone) cs vs ds ->
       forall rest, unflats unflat (map (treedef no_leaf) (map (dynp g) cs)) (vs ++ rest) = Ok (ds, rest)).
  Proof.
    apply fills_mut.
    - intros a v Hg rest. unfold dynp; simpl. rewrite Hg. reflexivity.
    - intros a Hg rest. unfold dynp; simpl. rewrite Hg. reflexivity.
    - reflexivity.
    - intros k cs vs ds _ IH rest. change (dynp g (Node k cs)) with (Node k (map (dynp g) cs)).
      cbn [treedef no_leaf unflat]. rewrite IH. reflexivity.
    - reflexivity.
    - intros c cs v vs d ds _ IH1 _ IH2 rest. simpl. rewrite <- app_assoc, IH1. simpl. rewrite IH2. reflexivity.
  Qed.
  Lemma unflatten_dyn (g : L -> bool) x vs y : fills g (fun _ => TNone) x vs y ->
    unflatten (treedef no_leaf (dynp g x)) vs = Ok y.
  Proof.
    intros H. unfold unflatten. pose proof (proj1 (fills_dyn_def g) x vs y H []) as E.
    rewrite app_nil_r in E. rewrite E. reflexivity.
  Qed.
  Lemma unflatten_dyn_err (g : L -> bool) x vs :
    length vs <> count g x -> exists e, unflatten (treedef no_leaf (dynp g x)) vs = Err e.
  Proof.
    intros H. destruct (unflatten (treedef no_leaf (dynp g x)) vs) as [t|e] eqn:E; [|eauto].
    exfalso. apply H. assert (E2 : exists t, unflatten (treedef no_leaf (dynp g x)) vs = Ok t) by eauto.
    apply unflatten_ok_iff in E2. rewrite E2, slots_leaves, dynp_leaves. reflexivity.
  Qed.
  (** All leaves replaced. *)
  Lemma unflatten_all x vs y : fills (fun _ => true) Leaf x vs y -> unflatten (treedef no_leaf x) vs = Ok y.
  Proof.
    intros H. pose proof (combine_unflatten _ _ _ _ _ H) as E.
    assert (C : combine_flat vs (statics (fun _ => true) Leaf (leaves no_leaf x)) = Ok vs).
    { pose proof (proj1 (fills_count _ _) _ _ _ H) as Hl. unfold count in Hl.
      assert (Hf : List.filter (on_leaf (fun _ : L => true)) (leaves no_leaf x) = leaves no_leaf x).
      { pose proof (leaves_are_Leaf x) as HL. clear -HL. induction HL as [|t l [a ->] _ IH]; simpl; [reflexivity|].
        f_equal; exact IH. }
      rewrite Hf in Hl. clear H E Hf. pose proof (leaves_are_Leaf x) as HL. unfold combine_flat, statics.
      enough (G : combine_loop vs (map (fun t => match t with Leaf _ => None | _ => Some t end) (leaves no_leaf x)) = Ok (vs, [])).
      { rewrite G. reflexivity. }
      revert vs Hl; induction HL as [|t l [a ->] _ IH]; intros [|v vs] Hl; simpl in *; try discriminate; [reflexivity|].
      rewrite IH by lia. reflexivity. }
    rewrite C in E. exact E.
  Qed.
End Fills.

Section Props.
  Context {L : Type}.
  Variables is_arr inexact : L -> bool.
  Notation T := (tree L).
  (** The inexact-array leaves of [x]. *)
  Definition wrt (x : T) : list T := List.filter (on_leaf inexact) (leaves no_leaf x).
  Lemma wrt_leaf x : Forall is_Leaf (wrt x).
  Proof.
    apply Forall_forall. intros t Ht. apply filter_In in Ht as [Ht _].
    pose proof (leaves_are_Leaf x) as HL. rewrite Forall_forall in HL. auto.
  Qed.

  (** [F] is [fn] as a function of the inexact-array leaves of [x], everything else being as in [x]. *)
  Definition restricts {X : Type} (fn : T -> res X) (x : T) (F : list T -> res X) : Prop :=
    forall ws, length ws = length (wrt x) -> Forall is_Leaf ws ->
      exists y, fills inexact Leaf x ws y /\ F ws = fn y.
  (** Gradients [gs] laid out in the structure of [x], with [None] elsewhere. *)
  Definition laid_out (x : T) (gs : list T) (y : T) : Prop := fills inexact (fun _ => TNone) x gs y.

  Lemma restricts_intro {X} (fn : T -> res X) x :
    restricts fn x (fun ws => d <- unflatten (treedef no_leaf (dynp inexact x)) ws ;;
                              p <- eqx_combine no_leaf [d; stap inexact x] ;; fn p).
  Proof.
    intros ws Hl Hw. destruct (fills_exists inexact Leaf x ws Hl) as [y Hy]. exists y. split; [exact Hy|].
    pose proof (unpack_fills inexact x ws y Hy Hw) as E. unfold unpack in E.
    destruct (unflatten _ ws) as [d|e]; cbn [bind] in *; [|discriminate]. rewrite E. reflexivity.
  Qed.
  Lemma restricts_self {X} (fn : T -> res X) x F : restricts fn x F -> F (wrt x) = fn x.
  Proof.
    intros H. destruct (H (wrt x) eq_refl (wrt_leaf x)) as (y & Hy & ->).
    rewrite (proj1 (fills_fun inexact Leaf) _ _ _ Hy x (fills_self inexact x)). reflexivity.
  Qed.
  Lemma laid_out_exists x gs : length gs = length (wrt x) -> exists y, laid_out x gs y.
  Proof. apply fills_exists. Qed.

  (** The engine of [jax.value_and_grad] differentiates exactly: the user's function as a
      function of the inexact-array leaves of the first argument, at the values they have; the
      gradients come back in the structure of the first argument, with [None] for every leaf that
      is not an inexact array. Exceptions of the function or of JAX pass through. *)
  Theorem C55_value_and_grad : forall VG has_aux (fn : T -> T -> res T) x args rest,
    (forall F ws v gs, VG has_aux F ws = Ok (v, gs) -> length gs = length ws) ->
    exists F, restricts (fun y => fn y (Node 0 [Node 0 args; rest])) x F /\
      F (wrt x) = fn x (Node 0 [Node 0 args; rest]) /\
      (forall e, VG has_aux F (wrt x) = Err e -> filter_value_and_grad inexact VG has_aux fn (x :: args) rest = Err e) /\
      (forall v gs, VG has_aux F (wrt x) = Ok (v, gs) ->
         exists g, laid_out x gs g /\ filter_value_and_grad inexact VG has_aux fn (x :: args) rest = Ok (v, g)).
  Proof.
    intros VG has_aux fn x args rest Hlen.
    set (f := fun y => fn y (Node 0 [Node 0 args; rest])).
    set (F := fun ws => d <- unflatten (treedef no_leaf (dynp inexact x)) ws ;;
                        p <- eqx_combine no_leaf [d; stap inexact x] ;; f p).
    pose proof (restricts_intro f x) as HR. fold F in HR.
    exists F. split; [exact HR|]. split; [exact (restricts_self f x F HR)|].
    unfold filter_value_and_grad. rewrite partition_pred. cbn [bind]. unfold jax_value_and_grad.
    rewrite dynp_leaves. split.
    - intros e E. change (bind (VG has_aux F (wrt x)) (fun '(v, gs) =>
        g <- unflatten (treedef no_leaf (dynp inexact x)) gs ;; Ok (v, g)) = Err e). rewrite E. reflexivity.
    - intros v gs E. change (exists g, laid_out x gs g /\ bind (VG has_aux F (wrt x)) (fun '(v, gs) =>
        g <- unflatten (treedef no_leaf (dynp inexact x)) gs ;; Ok (v, g)) = Ok (v, g)). rewrite E. cbn [bind]. destruct (laid_out_exists x gs (Hlen _ _ _ _ E)) as [g Hg].
      exists g. split; [exact Hg|]. rewrite (unflatten_dyn _ _ _ _ Hg). reflexivity.
  Qed.

  (** No positional argument: [TypeError]. *)
  Theorem C55_no_argument : forall VG has_aux (fn : T -> T -> res T) rest,
    filter_value_and_grad inexact VG has_aux fn [] rest = Err TypeError /\
    filter_grad inexact VG has_aux fn [] rest = Err TypeError.
  Proof. split; reflexivity. Qed.

  (** [filter_grad] is [filter_value_and_grad] without the value (but with the auxiliary output). *)
  Theorem C55_grad : forall VG has_aux (fn : T -> T -> res T) args rest,
    (forall e, filter_value_and_grad inexact VG has_aux fn args rest = Err e ->
       filter_grad inexact VG has_aux fn args rest = Err e) /\
    (forall v g, filter_value_and_grad inexact VG false fn args rest = Ok (v, g) ->
       filter_grad inexact VG false fn args rest = Ok g) /\
    (forall k v aux g, filter_value_and_grad inexact VG true fn args rest = Ok (Node k [v; aux], g) ->
       filter_grad inexact VG true fn args rest = Ok (Node 0 [g; aux])).
  Proof.
    intros VG has_aux fn args rest. unfold filter_grad. split; [|split].
    - intros e ->. reflexivity.
    - intros v g ->. reflexivity.
    - intros k v aux g ->. reflexivity.
  Qed.

  (** ** Forward mode *)
  (** What the user's function is called on: leaves with a tangent are traced, others are as they were. *)
  Inductive lifts : T -> T -> tree (dual L) -> Prop :=
  | li_tr : forall a b, lifts (Leaf a) (Leaf b) (Leaf (Tr a b))
  | li_con : forall a, lifts (Leaf a) TNone (Leaf (Con a))
  | li_none : lifts TNone TNone TNone
  | li_node : forall k cs ds es, lifts_list cs ds es -> lifts (Node k cs) (Node k ds) (Node k es)
  with lifts_list : list T -> list T -> list (tree (dual L)) -> Prop :=
  | ll_nil : lifts_list [] [] []
  | ll_cons : forall c cs d ds e es, lifts c d e -> lifts_list cs ds es ->
      lifts_list (c :: cs) (d :: ds) (e :: es).
  Scheme lifts_min := Minimality for lifts Sort Prop
    with lifts_list_min := Minimality for lifts_list Sort Prop.
  Combined Scheme lifts_mut from lifts_min, lifts_list_min.

  Notation specOf t := (tmap is_none (fun t => Leaf (SBool (is_none t))) t : tree (spec_leaf L)).
  Definition selD' (m : bool) (s : T) : T := if m then s else TNone.
  Definition selS' (m : bool) (s : T) : T := if m then TNone else s.

  Lemma lifts_run :
    (forall p t z, lifts p t z -> exists sta dyn,
       treedef is_none p = treedef is_none t /\
       tmap2 no_leaf (sel_leaf no_leaf selD') (specOf t) p = Ok sta /\
       tmap2 no_leaf (sel_leaf no_leaf selS') (specOf t) p = Ok dyn /\
       length (leaves no_leaf dyn) = length (leaves no_leaf t) /\
       map mk_tr (List.combine (leaves no_leaf dyn) (leaves no_leaf t)) = List.filter is_tr (leaves no_leaf z) /\
       Forall (fun q => exists a b, q = (Leaf a, Leaf b)) (List.combine (leaves no_leaf dyn) (leaves no_leaf t)) /\
       (forall rest, exists d, unflat (treedef no_leaf dyn)
             (map mk_tr (List.combine (leaves no_leaf dyn) (leaves no_leaf t)) ++ rest) = Ok (d, rest) /\
          tmap2 (fun t => is_none t || no_leaf t) comb2 d (con sta) = Ok z)) /\
    (forall ps ts zs, lifts_list ps ts zs -> exists stas dyns,
       map (treedef is_none) ps = map (treedef is_none) ts /\
       zipM (tmap2 no_leaf (sel_leaf no_leaf selD')) (map (tmap is_none (fun t => Leaf (SBool (is_none t)))) ts) ps = Ok stas /\
       zipM (tmap2 no_leaf (sel_leaf no_leaf selS')) (map (tmap is_none (fun t => Leaf (SBool (is_none t)))) ts) ps = Ok dyns /\
       length (concat (map (leaves no_leaf) dyns)) = length (concat (map (leaves no_leaf) ts)) /\
       map mk_tr (List.combine (concat (map (leaves no_leaf) dyns)) (concat (map (leaves no_leaf) ts))) =
         List.filter is_tr (concat (map (leaves no_leaf) zs)) /\
       Forall (fun q => exists a b, q = (Leaf a, Leaf b))
         (List.combine (concat (map (leaves no_leaf) dyns)) (concat (map (leaves no_leaf) ts))) /\
       (forall rest, exists ds, unflats unflat (map (treedef no_leaf) dyns)
             (map mk_tr (List.combine (concat (map (leaves no_leaf) dyns)) (concat (map (leaves no_leaf) ts))) ++ rest)
             = Ok (ds, rest) /\
          zipM (tmap2 (fun t => is_none t || no_leaf t) comb2) ds (map con stas) = Ok zs)).
  Proof.
    apply lifts_mut.
    - intros a b. exists TNone, (Leaf a). do 5 (split; [reflexivity|]). split.
      { constructor; [eauto|constructor]. }
      intros rest. exists (Leaf (Tr a b)). split; reflexivity.
    - intros a. exists (Leaf a), TNone. do 5 (split; [reflexivity|]). split; [constructor|].
      intros rest. exists TNone. split; reflexivity.
    - exists TNone, TNone. do 5 (split; [reflexivity|]). split; [constructor|].
      intros rest. exists TNone. split; reflexivity.
    - intros k cs ds es _ (stas & dyns & H1 & H2 & H3 & H4 & HM & HF & H5).
      exists (Node k stas), (Node k dyns). cbn [tmap2 tmap treedef is_none no_leaf leaves].
      rewrite Nat.eqb_refl, H2, H3. split; [f_equal; exact H1|]. split; [reflexivity|]. split; [reflexivity|].
      split; [exact H4|]. split; [exact HM|]. split; [exact HF|].
      intros rest. destruct (H5 rest) as (xs & E1 & E2). exists (Node k xs). split.
      + cbn [unflat]. rewrite E1. reflexivity.
      + change (con (Node k stas)) with (Node k (map con stas)). cbn [tmap2 is_none no_leaf orb].
        rewrite Nat.eqb_refl, E2. reflexivity.
    - exists [], []. do 5 (split; [reflexivity|]). split; [constructor|].
      intros rest. exists []. split; reflexivity.
    - intros c cs d ds e es _ (sta & dyn & A1 & A2 & A3 & A4 & AM & AF & A5)
        _ (stas & dyns & H1 & H2 & H3 & H4 & HM & HF & H5).
      exists (sta :: stas), (dyn :: dyns). cbn [map zipM concat]. rewrite A2, A3. cbn [bind]. rewrite H2, H3.
      split; [f_equal; assumption|]. split; [reflexivity|]. split; [reflexivity|].
      split; [rewrite !app_length; lia|].
      assert (EC : List.combine (leaves no_leaf dyn ++ concat (map (leaves no_leaf) dyns))
                     (leaves no_leaf d ++ concat (map (leaves no_leaf) ds))
                   = List.combine (leaves no_leaf dyn) (leaves no_leaf d) ++
                     List.combine (concat (map (leaves no_leaf) dyns)) (concat (map (leaves no_leaf) ds))).
      { clear -A4. revert A4. generalize (leaves no_leaf dyn) as l1, (leaves no_leaf d) as l2.
        induction l1 as [|u l1 IH]; intros [|v l2] Hl; simpl in *; try discriminate; [reflexivity|].
        rewrite IH by lia. reflexivity. }
      rewrite EC, map_app, filter_app, AM, HM. split; [reflexivity|].
      split; [apply Forall_app; auto|]. intros rest. rewrite <- AM, <- HM, <- app_assoc. cbn [unflats].
      destruct (H5 rest) as (xs & E1 & E2).
      destruct (A5 (map mk_tr (List.combine (concat (map (leaves no_leaf) dyns)) (concat (map (leaves no_leaf) ds))) ++ rest))
        as (y & E3 & E4).
      exists (y :: xs). rewrite E3. cbn [bind]. rewrite E1. cbn [bind zipM map]. rewrite E4. cbn [bind]. rewrite E2. split; reflexivity.
  Qed.

  (** Without a lifting, but with matching structures, some tangent has no primal. *)
  Lemma no_lift (p : T) : forall t, treedef is_none p = treedef is_none t ->
    exists sta dyn,
       tmap2 no_leaf (sel_leaf no_leaf selD') (specOf t) p = Ok sta /\
       tmap2 no_leaf (sel_leaf no_leaf selS') (specOf t) p = Ok dyn /\
       length (leaves no_leaf dyn) <= length (leaves no_leaf t) /\
       (length (leaves no_leaf dyn) = length (leaves no_leaf t) -> exists z, lifts p t z).
  Proof.
    induction p as [a| |k cs IH] using tree_ind'; intros [b| |k' ds] H; simpl in H; try discriminate.
    - exists TNone, (Leaf a). do 2 (split; [reflexivity|]). split; [simpl; lia|].
      intros _; eexists; constructor.
    - exists (Leaf a), TNone. do 2 (split; [reflexivity|]). split; [simpl; lia|].
      intros _; eexists; constructor.
    - exists TNone, TNone. do 2 (split; [reflexivity|]). split; [simpl; lia|]. simpl; discriminate.
    - exists TNone, TNone. do 2 (split; [reflexivity|]). split; [simpl; lia|].
      intros _; eexists; constructor.
    - injection H as <- H.
      enough (G : exists stas dyns,
        zipM (tmap2 no_leaf (sel_leaf no_leaf selD')) (map (tmap is_none (fun t => Leaf (SBool (is_none t)))) ds) cs = Ok stas /\
        zipM (tmap2 no_leaf (sel_leaf no_leaf selS')) (map (tmap is_none (fun t => Leaf (SBool (is_none t)))) ds) cs = Ok dyns /\
        length (concat (map (leaves no_leaf) dyns)) <= length (concat (map (leaves no_leaf) ds)) /\
        (length (concat (map (leaves no_leaf) dyns)) = length (concat (map (leaves no_leaf) ds)) ->
           exists zs, lifts_list cs ds zs)).
      { destruct G as (stas & dyns & E1 & E2 & E3 & E4). exists (Node k stas), (Node k dyns).
        cbn [tmap2 tmap is_none no_leaf leaves]. rewrite Nat.eqb_refl, E1, E2.
        do 2 (split; [reflexivity|]). split; [exact E3|]. intros E. destruct (E4 E) as [zs Hz].
        exists (Node k zs). constructor; exact Hz. }
      revert ds H; induction IH as [|c cs Hc _ IHcs]; intros [|d ds] H; simpl in H; try discriminate.
      + exists [], []. do 2 (split; [reflexivity|]). split; [simpl; lia|]. intros _. exists []. constructor.
      + injection H as H1 H2. destruct (Hc d H1) as (sta & dyn & A1 & A2 & A3 & A4).
        destruct (IHcs ds H2) as (stas & dyns & B1 & B2 & B3 & B4).
        exists (sta :: stas), (dyn :: dyns). cbn [map zipM concat]. rewrite A1, A2. cbn [bind]. rewrite B1, B2.
        do 2 (split; [reflexivity|]). rewrite !app_length. split; [lia|]. intros E.
        destruct A4 as [z Hz]; [lia|]. destruct B4 as [zs Hzs]; [lia|]. exists (z :: zs). constructor; assumption.
  Qed.

  (** ** What comes out *)
  Notation selp g := (tmap no_leaf (fun s : tree (dual L) => if g s then s else TNone)).
  Notation seln g := (tmap no_leaf (fun s : tree (dual L) => if g s then TNone else s)).

  Lemma out_lifts (o : tree (dual L)) : lifts (prim o) (tang o) o.
  Proof.
    induction o as [[a|a b]| |k cs IH] using tree_ind'; try (simpl; constructor).
    clear k. induction IH; simpl; constructor; assumption.
  Qed.
  Lemma out_tang (o : tree (dual L)) : tang (selp is_tr o) = tang o.
  Proof.
    induction o as [[a|a b]| |k cs IH] using tree_ind'; try reflexivity.
    unfold tang in *; simpl. f_equal. clear k. induction IH; simpl; congruence.
  Qed.
  Lemma out_prim (o : tree (dual L)) :
    eqx_combine no_leaf [prim (selp is_tr o); prim (selp (is_arr_d is_arr) (seln is_tr o));
                         prim (seln (is_arr_d is_arr) (seln is_tr o))] = Ok (prim o).
  Proof.
    unfold eqx_combine. set (f := fun x xs => Ok (combine_args (x :: xs))).
    induction o as [[a|a b]| |k cs IH] using tree_ind'; try reflexivity.
    - simpl. unfold f. destruct (is_arr a) eqn:E; simpl; rewrite ?E; reflexivity.
    - unfold prim in *; cbn [tmap no_leaf tmapn is_none orb]. rewrite !map_map, map_length.
      cbn [kids]. rewrite Nat.eqb_refl, !map_length, Nat.eqb_refl. cbn [andb bind].
      match goal with |- rmap _ (mapMi ?F 0 ?l) = _ => enough (G : mapMi F 0 l = Ok (map prim cs)) end.
      { rewrite G. reflexivity. }
      set (P := fun t0 : tree (dual L) => prim t0).
      set (A := fun x : tree (dual L) => prim (selp (is_arr_d is_arr) (seln is_tr x))).
      set (N := fun x : tree (dual L) => prim (seln (is_arr_d is_arr) (seln is_tr x))).
      set (D := fun x : tree (dual L) => prim (selp is_tr x)).
      change (mapMi (fun i c => tmapn (fun x => is_none x || no_leaf x) f c (column i [map A cs; map N cs])) 0 (map D cs)
              = Ok (map prim cs)).
      assert (Hgen : forall pre suf, cs = pre ++ suf ->
        mapMi (fun i c => tmapn (fun x => is_none x || no_leaf x) f c (column i [map A cs; map N cs]))
          (length pre) (map D suf) = Ok (map prim suf)).
      { intros pre suf; revert pre. induction suf as [|c suf IHs]; intros pre E; [reflexivity|].
        cbn [map mapMi].
        assert (Ec : column (length pre) [map A cs; map N cs] = [A c; N c]).
        { cbn [column]. rewrite E, !map_app. rewrite !nth_error_app2 by (rewrite map_length; lia).
          rewrite !map_length, Nat.sub_diag. reflexivity. }
        rewrite Ec. rewrite Forall_forall in IH.
        assert (Hin : In c cs) by (rewrite E; apply in_or_app; simpl; auto).
        specialize (IH c Hin). change (tmapn (fun x => is_none x || no_leaf x) f (D c) [A c; N c] = Ok (prim c)) in IH.
        rewrite IH. cbn [bind]. specialize (IHs (pre ++ [c])). rewrite app_length in IHs. cbn [length] in IHs.
        rewrite Nat.add_1_r in IHs. rewrite IHs; [reflexivity|]. rewrite <- app_assoc. exact E. }
      apply (Hgen [] cs eq_refl).
  Qed.

  Lemma jvp_args compat (fn : tree (dual L) -> res (tree (dual L))) (p t : T) z :
    lifts p t z -> (forall a b, In (Leaf (Tr a b)) (leaves no_leaf z) -> compat (Leaf a) (Leaf b) = true) ->
    filter_jvp is_arr compat fn p t = (out <- fn z ;; Ok (prim out, tang out)).
  Proof.
    intros Hz Hc. destruct (proj1 lifts_run p t z Hz) as (sta & dyn & H1 & H2 & H3 & H4 & HM & HF & H5).
    unfold filter_jvp. rewrite H1, (proj2 (tdef_eqb_spec _ _) eq_refl). cbn [negb].
    assert (HP : eqx_partition no_leaf TNone p (specOf t) = Ok (sta, dyn)).
    { apply partition_fused. split; [exact H2|exact H3]. }
    rewrite HP. cbn [bind]. unfold jax_jvp. rewrite (proj2 (Nat.eqb_eq _ _) H4). cbn [negb].
    assert (HC : forallb (fun q => compat (fst q) (snd q)) (List.combine (leaves no_leaf dyn) (leaves no_leaf t)) = true).
    { apply forallb_forall. intros q Hq. pose proof Hq as Hq'. rewrite Forall_forall in HF.
      destruct (HF q Hq) as (a & b & ->). apply Hc. apply (in_map mk_tr) in Hq'. rewrite HM in Hq'.
      apply filter_In in Hq' as [Hq' _]. exact Hq'. }
    rewrite HC. cbn [negb]. unfold jvp_fn.
    destruct (H5 []) as (d & E1 & E2). rewrite app_nil_r in E1. unfold unflatten at 1. rewrite E1. cbn [bind].
    rewrite combine_two, E2. cbn [bind]. destruct (fn z) as [out|e]; cbn [bind]; [|reflexivity].
    assert (P1 : eqx_partition no_leaf TNone out (Leaf (SCall is_tr)) = Ok (selp is_tr out, seln is_tr out))
      by (apply partition_fused; split; reflexivity).
    rewrite P1. cbn [bind].
    assert (P2 : eqx_partition no_leaf TNone (seln is_tr out) (Leaf (SCall (is_arr_d is_arr)))
       = Ok (selp (is_arr_d is_arr) (seln is_tr out), seln (is_arr_d is_arr) (seln is_tr out)))
      by (apply partition_fused; split; reflexivity).
    rewrite P2. cbn [bind]. rewrite out_prim. cbn [bind]. rewrite out_tang. reflexivity.
  Qed.

  (** [filter_jvp]: the function is called on the primals, traced exactly where there is a tangent;
      the result is the pair (primals, tangents) of its output, whose tangent is [None] exactly where the
      output is not traced: primal and tangent outputs are to the output what primals and tangents are to
      the input. *)
  Theorem C55_jvp : forall compat (fn : tree (dual L) -> res (tree (dual L))) primals tangents i,
    lifts primals tangents i ->
    (forall a b, In (Leaf (Tr a b)) (leaves no_leaf i) -> compat (Leaf a) (Leaf b) = true) ->
    match fn i with
    | Ok out => exists po to, filter_jvp is_arr compat fn primals tangents = Ok (po, to) /\ lifts po to out
    | Err e => filter_jvp is_arr compat fn primals tangents = Err e
    end.
  Proof.
    intros compat fn primals tangents i Hl Hc. rewrite (jvp_args compat fn _ _ _ Hl Hc).
    destruct (fn i) as [out|e]; [|reflexivity]. cbn [bind]. exists (prim out), (tang out).
    split; [reflexivity|apply out_lifts].
  Qed.

  (** Misuse: different structures are a [ValueError]; a tangent for a missing primal, or one
      JAX finds incompatible with its primal, a [TypeError]. *)
  Theorem C55_jvp_errors : forall compat (fn : tree (dual L) -> res (tree (dual L))) (primals tangents : T),
    (treedef is_none primals <> treedef is_none tangents ->
       filter_jvp is_arr compat fn primals tangents = Err ValueError) /\
    (treedef is_none primals = treedef is_none tangents -> (forall i, ~ lifts primals tangents i) ->
       filter_jvp is_arr compat fn primals tangents = Err TypeError) /\
    (forall i a b, lifts primals tangents i -> In (Leaf (Tr a b)) (leaves no_leaf i) ->
       compat (Leaf a) (Leaf b) = false -> filter_jvp is_arr compat fn primals tangents = Err TypeError).
  Proof.
    intros compat fn p t. split; [|split].
    - intros H. unfold filter_jvp. destruct (tdef_eqb _ _) eqn:E; [|reflexivity].
      apply tdef_eqb_spec in E. contradiction.
    - intros H Hn. destruct (no_lift p t H) as (sta & dyn & H2 & H3 & H4 & H5).
      unfold filter_jvp. rewrite H, (proj2 (tdef_eqb_spec _ _) eq_refl). cbn [negb].
      assert (HP : eqx_partition no_leaf TNone p (specOf t) = Ok (sta, dyn)).
      { apply partition_fused. split; [exact H2|exact H3]. }
      rewrite HP. cbn [bind]. unfold jax_jvp.
      destruct (Nat.eqb_spec (length (leaves no_leaf dyn)) (length (leaves no_leaf t))) as [E|E]; [|reflexivity].
      destruct (H5 E) as [z Hz]. destruct (Hn z Hz).
    - intros i a b Hz Hin Hc. destruct (proj1 lifts_run p t i Hz) as (sta & dyn & H1 & H2 & H3 & H4 & HM & HF & H5).
      unfold filter_jvp. rewrite H1, (proj2 (tdef_eqb_spec _ _) eq_refl). cbn [negb].
      assert (HP : eqx_partition no_leaf TNone p (specOf t) = Ok (sta, dyn)).
      { apply partition_fused. split; [exact H2|exact H3]. }
      rewrite HP. cbn [bind]. unfold jax_jvp. rewrite (proj2 (Nat.eqb_eq _ _) H4). cbn [negb].
      destruct (forallb _ _) eqn:HC; [|reflexivity]. rewrite forallb_forall in HC. exfalso.
      assert (Hin2 : In (Leaf (Tr a b)) (List.filter is_tr (leaves no_leaf i))) by (apply filter_In; auto).
      rewrite <- HM in Hin2. apply in_map_iff in Hin2 as (q & Hq & Hqin). rewrite Forall_forall in HF.
      destruct (HF q Hqin) as (a' & b' & ->). simpl in Hq. injection Hq as -> ->.
      specialize (HC _ Hqin). simpl in HC. congruence.
  Qed.

  (** ** Reverse mode *)
  (** JAX's [vjp] returns the outputs and auxiliary output of the function at the point; the pullback returns one
      cotangent per input. *)
  Definition vjp_law {X} (VJP : (list T -> res (list T * X)) -> list T -> res (list T * (list T -> res (list T)) * X)) :=
    forall F ws os pull x, VJP F ws = Ok (os, pull, x) ->
      F ws = Ok (os, x) /\ (forall cts cs, pull cts = Ok cs -> length cs = length ws).

  Lemma dyn_roundtrip (o : T) :
    exists d, unflatten (treedef no_leaf (dynp inexact o)) (leaves no_leaf (dynp inexact o)) = Ok d /\
              eqx_combine no_leaf [d; stap inexact o] = Ok o.
  Proof.
    rewrite dynp_leaves. pose proof (unpack_fills inexact o _ _ (fills_self inexact o) (wrt_leaf o)) as E.
    unfold unpack in E. apply bind_ok in E as (d & E1 & E2). exists d. split; [exact E1|exact E2].
  Qed.

  (** What the user's function returns: the output and the auxiliary output. *)
  Definition returned (has_aux : bool) (out : T) : res (T * T) :=
    match has_aux, out with
    | false, _ => Ok (out, TNone)
    | true, Node _ [o; aux] => Ok (o, aux)
    | true, _ => Err ValueError
    end.
  Lemma split_returned has_aux out : split_aux has_aux out = returned has_aux out.
  Proof. destruct has_aux; reflexivity. Qed.

  (** [filter_vjp]: what is differentiated is the function of the inexact-array leaves of the primals; the
      primal output is exactly the function's output; the pullback takes cotangents with the structure of the output's
      inexact-array leaves, hands them to JAX's pullback, and returns cotangents in the structure of the
      primals, [None] at leaves that are not inexact arrays. *)
  Theorem C55_vjp : forall VJP (fn : T -> res T) primals has_aux,
    vjp_law VJP ->
    exists F, restricts (fun y => out <- fn y ;; '(o, aux) <- returned has_aux out ;; Ok (wrt o)) primals
                (fun ws => rmap fst (F ws)) /\
      match VJP F (wrt primals) with
      | Err e => filter_vjp inexact VJP fn primals has_aux = Err e
      | Ok (os, pull, _) =>
          exists out o aux pull', fn primals = Ok out /\ returned has_aux out = Ok (o, aux) /\ os = wrt o /\
            filter_vjp inexact VJP fn primals has_aux = Ok (o, pull', aux) /\
            (forall cts ct, laid_out o cts ct -> Forall is_Leaf cts ->
               match pull cts with
               | Err e => pull' ct = Err e
               | Ok cs => exists r, pull' ct = Ok r /\ laid_out primals cs r
               end) /\
            (forall ct, (forall cts, Forall is_Leaf cts -> ~ laid_out o cts ct) -> pull' ct = Err ValueError)
      end.
  Proof.
    intros VJP fn p has_aux Hlaw.
    set (F := vjp_diff_fun inexact fn has_aux (treedef no_leaf (dynp inexact p)) (stap inexact p)).
    assert (HR : restricts (fun y => out <- fn y ;; '(o, aux) <- returned has_aux out ;;
                           Ok (wrt o, (treedef no_leaf (dynp inexact o), stap inexact o, aux))) p F).
    { intros ws Hl Hw. destruct (fills_exists inexact Leaf p ws Hl) as [y Hy]. exists y. split; [exact Hy|].
      pose proof (unpack_fills inexact p ws y Hy Hw) as E. unfold unpack in E.
      unfold F, vjp_diff_fun. destruct (unflatten _ ws) as [d|e]; cbn [bind] in *; [|discriminate].
      rewrite E. cbn [bind]. destruct (fn y) as [out|e]; cbn [bind]; [|reflexivity]. rewrite split_returned.
      destruct (returned has_aux out) as [[o aux]|e]; cbn [bind]; [|reflexivity].
      rewrite partition_pred. cbn [bind]. rewrite dynp_leaves. reflexivity. }
    exists F. split.
    { intros ws Hl Hw. destruct (HR ws Hl Hw) as (y & Hy & ->). exists y. split; [exact Hy|].
      destruct (fn y) as [out|e]; cbn [bind]; [|reflexivity].
      destruct (returned has_aux out) as [[o aux]|e]; reflexivity. }
    unfold filter_vjp. rewrite partition_pred. cbn [bind]. rewrite dynp_leaves. fold F. fold (wrt p).
    destruct (VJP F (wrt p)) as [[[os pull] x]|e] eqn:EV; cbn [bind]; [|reflexivity].
    destruct (Hlaw _ _ _ _ _ EV) as [EF Hpull]. rewrite (restricts_self _ _ _ HR) in EF.
    destruct (fn p) as [out|e] eqn:Efn; cbn [bind] in EF; [|discriminate].
    destruct (returned has_aux out) as [[o aux]|e] eqn:Es; cbn [bind] in EF; [|discriminate].
    injection EF as <- <-. destruct (dyn_roundtrip o) as (d & E1 & E2). rewrite dynp_leaves in E1. fold (wrt o) in E1.
    rewrite E1. cbn [bind]. rewrite E2. cbn [bind].
    eexists out, o, aux, _. split; [reflexivity|]. split; [exact Es|]. split; [reflexivity|]. split; [reflexivity|].
    split.
    - intros cts ct Hct Hleaf.
      assert (Hd : treedef no_leaf ct = treedef no_leaf (dynp inexact o) /\ leaves no_leaf ct = cts).
      { pose proof (unflatten_dyn _ _ _ _ Hct) as E. revert E Hleaf. clear. intros E Hleaf.
        apply flatten_unflatten in E; [|exact Hleaf]. destruct E as [Ha Hb]. split; assumption. }
      destruct Hd as [Hd1 Hd2]. rewrite Hd1, (proj2 (tdef_eqb_spec _ _) eq_refl), Hd2.
      destruct (pull cts) as [cs|e] eqn:Ep; cbn [bind]; [|reflexivity].
      destruct (laid_out_exists p cs) as [r Hr]; [exact (Hpull _ _ Ep)|].
      exists r. split; [|exact Hr]. apply unflatten_dyn. exact Hr.
    - intros ct Hne. destruct (tdef_eqb _ _) eqn:E; [|reflexivity]. apply tdef_eqb_spec in E.
      exfalso. apply (Hne (leaves no_leaf ct)); [apply leaves_are_Leaf|].
      destruct (laid_out_exists o (leaves no_leaf ct)) as [y Hy].
      { unfold wrt. rewrite <- dynp_leaves, <- !slots_leaves, E. reflexivity. }
      pose proof (unflatten_dyn _ _ _ _ Hy) as E3. rewrite <- E, unflatten_flatten in E3.
      injection E3 as ->. exact Hy.
  Qed.

  (** ** Jacobians *)
  Definition jac_law {X} (JAC : (list T -> res (list T * X)) -> list T -> res (list (list T) * X)) :=
    forall F ws rows x, JAC F ws = Ok (rows, x) ->
      exists os, F ws = Ok (os, x) /\ length rows = length os /\ Forall (fun r => length r = length ws) rows.

  (** [filter_jacfwd]/[filter_jacrev]: every leaf of the output must be an array ([TypeError] otherwise); the
      result has the structure of the output, each leaf being replaced by a tree with the structure of the first
      argument that holds the derivatives of that output with respect to the inexact-array leaves and
      [None] elsewhere. *)
  Theorem C55_jacobian : forall JAC rev (fn : T -> res T) x has_aux,
    jac_law (JAC rev) ->
    exists F, restricts (fun y => out <- fn y ;; '(o, aux) <- returned has_aux out ;;
                           if forallb (on_leaf is_arr) (leaves no_leaf o) then Ok (leaves no_leaf o)
                           else Err TypeError) x (fun ws => rmap fst (F ws)) /\
      match JAC rev F (wrt x) with
      | Err e => filter_jac is_arr inexact JAC rev fn has_aux x = Err e
      | Ok (rows, _) =>
          exists out o aux ts j, fn x = Ok out /\ returned has_aux out = Ok (o, aux) /\
            Forall (fun s => on_leaf is_arr s = true) (leaves no_leaf o) /\
            Forall2 (laid_out x) rows ts /\ fills (fun _ => true) Leaf o ts j /\
            filter_jac is_arr inexact JAC rev fn has_aux x = Ok (j, aux)
      end.
  Proof.
    intros JAC rev fn x has_aux Hlaw.
    set (F := jac_fun is_arr fn has_aux (treedef no_leaf (dynp inexact x)) (stap inexact x)).
    assert (HR : restricts (fun y => out <- fn y ;; '(o, aux) <- returned has_aux out ;;
                           if forallb (on_leaf is_arr) (leaves no_leaf o) then Ok (leaves no_leaf o, (treedef no_leaf o, aux))
                           else Err TypeError) x F).
    { intros ws Hl Hw. destruct (fills_exists inexact Leaf x ws Hl) as [y Hy]. exists y. split; [exact Hy|].
      pose proof (unpack_fills inexact x ws y Hy Hw) as E. unfold unpack in E.
      unfold F, jac_fun. destruct (unflatten _ ws) as [d|e]; cbn [bind] in *; [|discriminate].
      rewrite E. cbn [bind]. destruct (fn y) as [out|e]; cbn [bind]; [|reflexivity]. rewrite split_returned. reflexivity. }
    exists F. split.
    { intros ws Hl Hw. destruct (HR ws Hl Hw) as (y & Hy & ->). exists y. split; [exact Hy|].
      destruct (fn y) as [out|e]; cbn [bind]; [|reflexivity].
      destruct (returned has_aux out) as [[o aux]|e]; cbn [bind]; [|reflexivity].
      destruct (forallb _ _); reflexivity. }
    unfold filter_jac. rewrite partition_pred. cbn [bind]. rewrite dynp_leaves. fold F. fold (wrt x).
    destruct (JAC rev F (wrt x)) as [[rows y]|e] eqn:EV; cbn [bind]; [|reflexivity].
    destruct (Hlaw _ _ _ _ EV) as (os & EF & Hlen & Hrows). rewrite (restricts_self _ _ _ HR) in EF.
    destruct (fn x) as [out|e] eqn:Efn; cbn [bind] in EF; [|discriminate].
    destruct (returned has_aux out) as [[o aux]|e] eqn:Es; cbn [bind] in EF; [|discriminate].
    destruct (forallb (on_leaf is_arr) (leaves no_leaf o)) eqn:Ea; [|discriminate].
    injection EF as <- <-.
    assert (HT : exists ts, Forall2 (laid_out x) rows ts /\ mapM (unflatten (treedef no_leaf (dynp inexact x))) rows = Ok ts).
    { clear -Hrows. induction Hrows as [|r rows Hr _ (ts & H1 & H2)].
      - exists []. split; [constructor|reflexivity].
      - destruct (laid_out_exists x r Hr) as [t Ht]. exists (t :: ts). split; [constructor; assumption|].
        simpl. rewrite (unflatten_dyn _ _ _ _ Ht). cbn [bind]. rewrite H2. reflexivity. }
    destruct HT as (ts & HT1 & HT2). rewrite HT2. cbn [bind].
    assert (Hc : length ts = count (fun _ => true) o).
    { rewrite <- (Forall2_length' _ _ _ HT1), Hlen. unfold count. f_equal.
      pose proof (leaves_are_Leaf o) as HL. clear -HL. induction HL as [|t l [a ->] _ IH]; simpl; [reflexivity|].
      f_equal; exact IH. }
    destruct (fills_exists (fun _ => true) Leaf o ts Hc) as [j Hj].
    rewrite (unflatten_all _ _ _ Hj). cbn [bind].
    exists out, o, aux, ts, j. do 2 (split; [auto|]). split; [|auto].
    apply Forall_forall. rewrite forallb_forall in Ea. exact Ea.
  Qed.

  (** ** Hessians *)
  (** Filling in place of all leaves of a tree of gradients is laying out. *)
  Lemma laid_out_again :
    (forall x vs y, laid_out x vs y -> Forall is_Leaf vs ->
       forall ws z, fills (fun _ => true) Leaf y ws z -> laid_out x ws z) /\
    (forall cs vs ds, fills_list inexact (fun _ => TNone) cs vs ds -> Forall is_Leaf vs ->
       forall ws zs, fills_list (fun _ => true) Leaf ds ws zs -> fills_list inexact (fun _ => TNone) cs ws zs).
  Proof.
    unfold laid_out. apply (fills_mut L inexact (fun _ => TNone)
      (fun x vs y => Forall is_Leaf vs -> forall ws z, fills (fun _ => true) Leaf y ws z -> fills inexact (fun _ => TNone) x ws z)
      (fun cs vs ds => Forall is_Leaf vs -> forall ws zs, fills_list (fun _ => true) Leaf ds ws zs ->
         fills_list inexact (fun _ => TNone) cs ws zs)).
    - intros a v Ha Hv ws z H. inversion Hv as [|? ? Hl _]; subst. destruct Hl as [b ->].
      inversion H; subst; [constructor; assumption|discriminate].
    - intros a Ha _ ws z H. inversion H; subst. constructor. assumption.
    - intros _ ws z H. inversion H; subst. constructor.
    - intros k cs vs ds _ IH Hv ws z H. inversion H; subst. constructor. apply IH; assumption.
    - intros _ ws zs H. inversion H; subst. constructor.
    - intros c cs v vs d ds _ IH1 _ IH2 Hv ws zs H. apply Forall_app in Hv as [Hv1 Hv2].
      inversion H; subst. constructor; [apply IH1|apply IH2]; assumption.
  Qed.
  (** Filling twice: each of the trees put in first is filled, and the results are put in. *)
  Lemma fills_twice :
    (forall (x : T) ts y, fills (fun _ => true) Leaf x ts y -> forall ws z, fills (fun _ => true) Leaf y ws z ->
       exists wss zs, concat wss = ws /\ length wss = length ts /\
         (forall i t w, nth_error ts i = Some t -> nth_error wss i = Some w ->
            exists u, nth_error zs i = Some u /\ fills (fun _ => true) Leaf t w u) /\
         length zs = length ts /\ fills (fun _ => true) Leaf x zs z) /\
    (forall (xs : list T) ts ys, fills_list (fun _ => true) Leaf xs ts ys ->
       forall ws z, fills_list (fun _ => true) Leaf ys ws z ->
       exists wss zs, concat wss = ws /\ length wss = length ts /\
         (forall i t w, nth_error ts i = Some t -> nth_error wss i = Some w ->
            exists u, nth_error zs i = Some u /\ fills (fun _ => true) Leaf t w u) /\
         length zs = length ts /\ fills_list (fun _ => true) Leaf xs zs z).
  Proof.
    apply fills_mut.
    - intros a v _ ws z H. exists [ws], [z]. split; [apply app_nil_r|]. split; [reflexivity|].
      split; [|split; [reflexivity|constructor; reflexivity]].
      intros [|i] t w H1 H2; [|destruct i; discriminate]. injection H1 as <-. injection H2 as <-. exists z. auto.
    - discriminate.
    - intros ws z H. inversion H; subst. exists [], []. repeat split; [|constructor]. intros [|i] t w; discriminate.
    - intros k cs vs ds _ IH ws z H. inversion H as [| | |? ? ? ? HL]; subst.
      destruct (IH _ _ HL) as (wss & zs & H3 & H4 & H5 & H6 & H7). exists wss, zs. repeat split; try assumption.
      constructor. exact H7.
    - intros ws z H. inversion H; subst. exists [], []. repeat split; [|constructor]. intros [|i] t w; discriminate.
    - intros c cs v vs d ds _ IH1 _ IH2 ws z H. inversion H as [|? ? w1 w2 z1 z2 HA HB]; subst.
      destruct (IH1 _ _ HA) as (wss1 & zs1 & A1 & A2 & A3 & A4 & A5).
      destruct (IH2 _ _ HB) as (wss2 & zs2 & B1 & B2 & B3 & B4 & B5).
      exists (wss1 ++ wss2), (zs1 ++ zs2). split; [rewrite concat_app; congruence|].
      split; [rewrite !app_length; congruence|]. split.
      + intros i t w Hi Hw. destruct (Nat.lt_ge_cases i (length v)) as [Hl|Hl].
        * rewrite nth_error_app1 in Hi by exact Hl. rewrite nth_error_app1 in Hw by (rewrite A2; exact Hl).
          destruct (A3 _ _ _ Hi Hw) as (u & U1 & U2). exists u. split; [|exact U2].
          rewrite nth_error_app1; [exact U1|]. rewrite A4. exact Hl.
        * rewrite nth_error_app2 in Hi by exact Hl. rewrite nth_error_app2 in Hw by (rewrite A2; exact Hl).
          rewrite A2 in Hw. destruct (B3 _ _ _ Hi Hw) as (u & U1 & U2). exists u. split; [|exact U2].
          rewrite nth_error_app2; rewrite A4; [exact U1|exact Hl].
      + split; [rewrite !app_length; congruence|constructor; assumption].
  Qed.
  Lemma Forall2_app_parts {A B} (R : A -> B -> Prop) (bss : list (list B)) : forall l, Forall2 R l (concat bss) ->
    exists ass, concat ass = l /\ Forall2 (Forall2 R) ass bss.
  Proof.
    induction bss as [|bs bss IH]; simpl; intros l H.
    - inversion H; subst. exists []. auto.
    - apply Forall2_app_inv_r in H as (l1 & l2 & H1 & H2 & ->). destruct (IH _ H2) as (ass & <- & H3).
      exists (l1 :: ass). auto.
  Qed.

  (** [filter_hessian]: the result has the structure of the output; each leaf is replaced by a square of derivatives: a tree with the
      structure of the first argument, in which each inexact-array leaf is replaced by another tree of that structure. The
      engines return arrays. *)
  Theorem C55_hessian : forall JAC (fn : T -> res T) x has_aux h aux,
    (forall rev, jac_law (JAC rev)) ->
    (forall rev F ws rows y, Forall is_Leaf ws -> JAC rev F ws = Ok (rows, y) -> Forall (Forall is_Leaf) rows) ->
    filter_hessian is_arr inexact JAC fn has_aux x = Ok (h, aux) ->
    exists out o squares ts, fn x = Ok out /\ returned has_aux out = Ok (o, aux) /\
      Forall (fun s => on_leaf is_arr s = true) (leaves no_leaf o) /\
      Forall2 (fun square t => Forall (fun row => length row = length (wrt x)) square /\
                               exists us, Forall2 (laid_out x) square us /\ laid_out x us t) squares ts /\
      fills (fun _ => true) Leaf o ts h.
  Proof.
    intros JAC fn x has_aux h aux Hlaw Hleaf H. unfold filter_hessian in H.
    set (g := fun y => '(j, aux) <- filter_jac is_arr inexact JAC true fn has_aux y ;; Ok (if has_aux then Node 0 [j; aux] else j)) in *.
    destruct (C55_jacobian JAC false g x has_aux (Hlaw false)) as (F & _ & HF).
    destruct (JAC false F (wrt x)) as [[rows2 y2]|e] eqn:E2; [|rewrite HF in H; discriminate].
    destruct HF as (out2 & j1 & aux2 & ts2 & h' & G1 & G2 & _ & G4 & G5 & G6).
    rewrite G6 in H. injection H as -> ->. unfold g in G1.
    destruct (C55_jacobian JAC true fn x has_aux (Hlaw true)) as (F1 & _ & HF1).
    destruct (JAC true F1 (wrt x)) as [[rows1 y1]|e] eqn:E1; [|rewrite HF1 in G1; discriminate].
    destruct HF1 as (out & o & aux1 & ts1 & j & K1 & K2 & K3 & K4 & K5 & K6).
    rewrite K6 in G1. cbn [bind] in G1. injection G1 as <-.
    assert (HJ : j1 = j /\ aux = aux1).
    { destruct has_aux; cbn [returned] in G2; [injection G2 as <- <-; auto|]. injection G2 as <- <-.
      split; [reflexivity|]. cbn [returned] in K2. congruence. }
    destruct HJ as [-> ->].
    destruct (proj1 fills_twice _ _ _ K5 _ _ G5) as (wss & zs & W1 & W2 & W3 & W4 & W5).
    rewrite <- W1 in G4. destruct (Forall2_app_parts _ _ _ G4) as (squares & Q1 & Q2).
    exists out, o, squares, zs. do 3 (split; [assumption|]). split; [|exact W5].
    assert (R1 : Forall (Forall is_Leaf) rows1) by exact (Hleaf _ _ _ _ _ (wrt_leaf x) E1).
    assert (R2 : Forall (fun row => length row = length (wrt x)) (concat squares)).
    { destruct (Hlaw _ _ _ _ _ E2) as (os & _ & _ & HR). rewrite Q1. exact HR. }
    clear - W2 W3 W4 Q2 K4 R1 R2.
    revert rows1 wss zs squares K4 R1 R2 W2 W3 W4 Q2. induction ts1 as [|t ts1 IH]; intros rows1 wss zs squares K4 R1 R2 W2 W3 W4 Q2.
    { destruct wss; [|discriminate]. destruct zs; [|discriminate]. inversion Q2; subst. constructor. }
    destruct wss as [|w wss]; [discriminate|]. destruct zs as [|z zs]; [discriminate|].
    inversion Q2 as [|sq ? sqs ? Q3 Q4]; subst. inversion K4 as [|r ? rs ? K7 K8]; subst.
    inversion R1 as [|? ? R3 R4]; subst. simpl in R2. apply Forall_app in R2 as [R5 R6].
    constructor.
    - split; [exact R5|]. exists w. split; [exact Q3|].
      destruct (W3 0 t w eq_refl eq_refl) as (u & U1 & U2). injection U1 as <-.
      exact (proj1 laid_out_again _ _ _ K7 R3 _ _ U2).
    - apply (IH rs wss zs sqs K8 R4 R6); auto. intros i t' w' H1 H2. exact (W3 (S i) t' w' H1 H2).
  Qed.
End Props.
Print Assumptions C55_value_and_grad.
Print Assumptions C55_jvp.
Print Assumptions C55_jvp_errors.
Print Assumptions C55_vjp.
Print Assumptions C55_jacobian.
Print Assumptions C55_hessian.

(** ** Examples: leaves are numbers; even numbers are inexact arrays, odd ones are not arrays.
    The engine: the gradient of leaf [n] is [n + 100]. *)
Section Examples.
  Definition ev (n : nat) : bool := Nat.even n.
  Definition ex_x : tree nat := Node 1 [Leaf 2; Leaf 3; TNone; Node 2 [Leaf 4]].
  Definition bump (t : tree nat) : tree nat := match t with Leaf n => Leaf (n + 100) | _ => t end.
  Definition ex_VG : bool -> (list (tree nat) -> res (tree nat)) -> list (tree nat) -> res (tree nat * list (tree nat)) :=
    fun _ F ws => v <- F ws ;; Ok (v, map bump ws).
  Example C55_ex_vg :
    filter_value_and_grad ev ex_VG false (fun y rest => Ok (Node 9 [y; rest])) [ex_x; Leaf 7] TNone
    = Ok (Node 9 [ex_x; Node 0 [Node 0 [Leaf 7]; TNone]],
          Node 1 [Leaf 102; TNone; TNone; Node 2 [Leaf 104]]).
  Proof. reflexivity. Qed.
  Example C55_ex_vg_law : forall b F ws v gs, ex_VG b F ws = Ok (v, gs) -> length gs = length ws.
  Proof. intros b F ws v gs H. unfold ex_VG in H. destruct (F ws); [|discriminate]. injection H as <- <-. apply map_length. Qed.
  Example C55_ex_grad_aux :
    filter_grad ev ex_VG true (fun y _ => Ok (Node 0 [Leaf 0; y])) [ex_x] TNone
    = Ok (Node 0 [Node 1 [Leaf 102; TNone; TNone; Node 2 [Leaf 104]]; ex_x]).
  Proof. reflexivity. Qed.
  (** Tangent for leaf 2 only; the function returns its input next to a constant. *)
  Example C55_ex_jvp :
    filter_jvp ev (fun _ _ => true) (fun i => Ok (Node 0 [i; Leaf (Con 8); Leaf (Con 9)])) ex_x
      (Node 1 [Leaf 50; TNone; TNone; Node 2 [TNone]])
    = Ok (Node 0 [ex_x; Leaf 8; Leaf 9],
          Node 0 [Node 1 [Leaf 50; TNone; TNone; Node 2 [TNone]]; TNone; TNone]).
  Proof. reflexivity. Qed.
  Example C55_ex_lifts :
    lifts ex_x (Node 1 [Leaf 50; TNone; TNone; Node 2 [TNone]])
      (Node 1 [Leaf (Tr 2 50); Leaf (Con 3); TNone; Node 2 [Leaf (Con 4)]]).
  Proof. repeat constructor. Qed.
  Example C55_ex_jvp_missing :
    filter_jvp ev (fun _ _ => true) (fun i => Ok i) (Node 1 [TNone; Leaf 2]) (Node 1 [Leaf 5; TNone]) = Err TypeError.
  Proof. reflexivity. Qed.
  Definition ex_VJP {X} (F : list (tree nat) -> res (list (tree nat) * X)) (ws : list (tree nat))
      : res (list (tree nat) * (list (tree nat) -> res (list (tree nat))) * X) :=
    '(os, x) <- F ws ;; Ok (os, fun cts => Ok (map (fun _ => Leaf (length cts)) ws), x).
  Example C55_ex_vjp_law : forall X, vjp_law (@ex_VJP X).
  Proof.
    intros X F ws os pull x H. unfold ex_VJP in H. destruct (F ws) as [[os' x']|]; [|discriminate].
    injection H as <- <- <-. split; [reflexivity|]. intros cts cs [= <-]. apply map_length.
  Qed.
  Example C55_ex_vjp :
    match filter_vjp ev ex_VJP (fun y => Ok (Node 3 [y; Leaf 6; Leaf 5])) ex_x false with
    | Ok (out, pull, _) =>
        out = Node 3 [ex_x; Leaf 6; Leaf 5] /\
        pull (Node 3 [Node 1 [Leaf 0; TNone; TNone; Node 2 [Leaf 0]]; Leaf 0; TNone])
          = Ok (Node 1 [Leaf 3; TNone; TNone; Node 2 [Leaf 3]]) /\
        pull (Leaf 0) = Err ValueError
    | Err _ => False
    end.
  Proof. repeat split; reflexivity. Qed.
  Definition ex_JAC {X} (_ : bool) (F : list (tree nat) -> res (list (tree nat) * X)) (ws : list (tree nat))
      : res (list (list (tree nat)) * X) :=
    '(os, x) <- F ws ;; Ok (map (fun _ => map bump ws) os, x).
  Example C55_ex_jac_law : forall X rev, jac_law (@ex_JAC X rev).
  Proof.
    intros X rev F ws rows x H. unfold ex_JAC in H. destruct (F ws) as [[os' x']|]; [|discriminate].
    injection H as <- <-. exists os'. rewrite map_length. do 2 (split; [reflexivity|]).
    apply Forall_forall. intros r Hr. apply in_map_iff in Hr as (o & <- & _). apply map_length.
  Qed.
  Example C55_ex_jac :
    filter_jac ev ev ex_JAC true (fun y => Ok (Node 3 [Leaf 6; Leaf 8])) false ex_x
    = Ok (Node 3 [Node 1 [Leaf 102; TNone; TNone; Node 2 [Leaf 104]];
                  Node 1 [Leaf 102; TNone; TNone; Node 2 [Leaf 104]]], TNone) /\
    filter_jac ev ev ex_JAC true (fun y => Ok (Node 3 [Leaf 6; Leaf 7])) false ex_x = Err TypeError.
  Proof. split; reflexivity. Qed.
  Example C55_ex_jac_leaf : forall X rev (F : list (tree nat) -> res (list (tree nat) * X)) ws rows y, Forall is_Leaf ws ->
    ex_JAC rev F ws = Ok (rows, y) -> Forall (Forall is_Leaf) rows.
  Proof.
    intros X rev F ws rows y Hw H. unfold ex_JAC in H. destruct (F ws) as [[os' x']|]; [|discriminate].
    injection H as <- <-. apply Forall_forall. intros r Hr. apply in_map_iff in Hr as (o & <- & _).
    apply Forall_forall. intros t Ht. apply in_map_iff in Ht as (u & <- & Hu). rewrite Forall_forall in Hw.
    destruct (Hw u Hu) as [n ->]. exists (n + 100). reflexivity.
  Qed.
  (** Two inexact arrays among four entries: squares with four derivatives. *)
  Example C55_ex_hess :
    filter_hessian ev ev ex_JAC (fun y => Ok (Node 0 [Leaf 6; Leaf 9])) true ex_x
    = Ok (Node 1 [Node 1 [Leaf 102; TNone; TNone; Node 2 [Leaf 104]]; TNone; TNone;
                  Node 2 [Node 1 [Leaf 102; TNone; TNone; Node 2 [Leaf 104]]]], Leaf 9).
  Proof. reflexivity. Qed.
End Examples.
Print Assumptions C55_no_argument.
Print Assumptions C55_grad.
