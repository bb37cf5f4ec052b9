(** C87: the rules of noinline. *)
From Coq Require Import Lia.
From Verif Require Import Filters_Proofs Leafwise Tree_Rel NoinlineRules_Model.
Local Open Scope nat_scope.
Local Open Scope list_scope.

Section Props.
  Variable V : Type.
  Notation array := (array V).
  Notation val := (val V).
  Notation T := (tree val).
  Notation F := (F V).

  (** ** Vocabulary *)
  (** Equal arrays: the same shape, and the same entries inside of it. *)
  Definition aeq (a b : array) : Prop :=
    shape _ a = shape _ b /\ forall idx, length idx = length (shape _ a) -> entry _ a idx = entry _ b idx.
  Definition veq (x y : val) : Prop :=
    match x, y with Arr _ a, Arr _ b => aeq a b | Undef _ i, Undef _ j => i = j | Obj _ i, Obj _ j => i = j | _, _ => False end.
  Definition rrel (x y : res T) : Prop :=
    match x, y with Ok t, Ok u => trel veq t u | Err e, Err e' => e = e' | _, _ => False end.
  Definition respects (f : F) : Prop := forall t u, trel veq t u -> rrel (f t) (f u).
  (** [jnp.moveaxis(a, 0, j)] *)
  Definition move_first (j : nat) (a : array) : array :=
    {| shape := match shape _ a with [] => [] | x :: r => firstn j r ++ x :: skipn j r end;
       entry := fun idx => entry _ a (nth j idx 0 :: firstn j idx ++ skipn (S j) idx) |}.
  (** Arguments with batch axes. *)
  Notation Z := (val * option nat)%type.
  Definition opt {X} (o : option X) : tree X := match o with Some x => Leaf x | None => TNone end.
  Definition valid (z : tree Z) : Prop := forall v k, In (v, Some k) (labels z) -> exists a, v = Arr _ a /\ k < length (shape _ a).
  (** The argument of lane [b]. *)
  Definition at_lane (b : nat) (p : Z) : T := match p with (Arr _ a, Some k) => Leaf (Arr _ (take V k b a)) | (v, _) => Leaf v end.
  (** What is passed instead. *)
  Definition passed_lane (b : nat) (p : Z) : T :=
    match p with
    | (Arr _ a, Some (S j)) => Leaf (Arr _ (move_first j (take V (S j) b a)))
    | _ => at_lane b p
    end.

  (** ** Lemmas *)
  Lemma aeq_refl a : aeq a a.
  Proof. split; auto. Qed.
  Lemma veq_refl v : veq v v.
  Proof. destruct v; cbn; auto using aeq_refl. Qed.
  Lemma trel_refl (t : T) : trel veq t t.
  Proof.
    induction t as [a| |k cs IH] using tree_ind'; constructor; auto using veq_refl.
    induction IH; constructor; auto.
  Qed.
  Lemma trel_lw {A} (f g : A -> T) (t : tree A) : (forall a, In a (labels t) -> trel veq (f a) (g a)) -> trel veq (lw f t) (lw g t).
  Proof.
    induction t as [a| |k cs IH] using tree_ind'; cbn [lw labels]; intros H; [apply H; left; reflexivity|constructor|].
    constructor. induction IH as [|c cs Hc _ IHcs]; cbn [map] in *; constructor.
    - apply Hc. intros a Ha. apply H. cbn. apply in_or_app. auto.
    - apply IHcs. intros a Ha. apply H. cbn. apply in_or_app. auto.
  Qed.
  Lemma split_nth {X} (l : list X) j d : j < length l -> l = firstn j l ++ nth j l d :: skipn (S j) l.
  Proof.
    revert j. induction l as [|x l IH]; intros [|j] H; cbn in *; try lia; [reflexivity|]. f_equal. apply IH. lia.
  Qed.
  Lemma swap0_split {X} (x : X) (l1 : list X) y l2 : swap0 (S (length l1)) (x :: l1 ++ y :: l2) = y :: l1 ++ x :: l2.
  Proof.
    cbn [swap0]. rewrite nth_error_app2, Nat.sub_diag by lia. cbn [nth_error].
    rewrite firstn_app, Nat.sub_diag, firstn_all, firstn_O, app_nil_r.
    replace (S (length l1)) with (length l1 + 1) by lia. rewrite skipn_app, skipn_all2 by lia.
    replace (length l1 + 1 - length l1) with 1 by lia. reflexivity.
  Qed.
  Lemma take_split {X} (l1 : list X) y l2 : firstn (length l1) (l1 ++ y :: l2) = l1 /\ skipn (S (length l1)) (l1 ++ y :: l2) = l2 /\
    skipn (length l1) (l1 ++ y :: l2) = y :: l2.
  Proof.
    rewrite firstn_app, Nat.sub_diag, firstn_all, firstn_O, app_nil_r. split; [reflexivity|].
    replace (S (length l1)) with (length l1 + 1) by lia. rewrite !skipn_app, skipn_all, Nat.sub_diag, skipn_all2 by lia.
    replace (length l1 + 1 - length l1) with 1 by lia. split; reflexivity.
  Qed.
  Lemma firstn_exact {X} (l1 l2 : list X) : firstn (length l1) (l1 ++ l2) = l1 /\ skipn (length l1) (l1 ++ l2) = l2.
  Proof. rewrite firstn_app, skipn_app, Nat.sub_diag, firstn_all, skipn_all, app_nil_r. split; reflexivity. Qed.
  (** The slice of the swapped array. *)
  Lemma swapped_slice j b (a : array) : S j < length (shape _ a) ->
    aeq (take V 0 b (swapaxes0 V (S j) a)) (move_first j (take V (S j) b a)).
  Proof.
    intros H. destruct (shape _ a) as [|x r] eqn:Es; [cbn in H; lia|]. cbn in H.
    assert (Hr : exists l1 y l2, r = l1 ++ y :: l2 /\ length l1 = j).
    { exists (firstn j r), (nth j r 0), (skipn (S j) r). split; [apply split_nth; lia|]. rewrite firstn_length. lia. }
    destruct Hr as (l1 & y & l2 & -> & <-).
    split.
    - unfold take, swapaxes0, move_first. cbn [shape]. rewrite Es, swap0_split.
      change (firstn (S (length l1)) (x :: l1 ++ y :: l2)) with (x :: firstn (length l1) (l1 ++ y :: l2)).
      change (skipn (S (S (length l1))) (x :: l1 ++ y :: l2)) with (skipn (S (length l1)) (l1 ++ y :: l2)).
      destruct (take_split l1 y l2) as (E1 & E2 & _). rewrite E1, E2. cbn [firstn skipn app].
      destruct (firstn_exact l1 l2) as [-> ->]. reflexivity.
    - intros idx Hi. unfold take, swapaxes0, move_first. cbn [entry]. f_equal.
      assert (Hl : length l1 < length idx).
      { cbn [take swapaxes0 shape] in Hi. rewrite Es, swap0_split in Hi. cbn in Hi. rewrite app_length in Hi. cbn in Hi. lia. }
      assert (Hs : exists i1 i i2, idx = i1 ++ i :: i2 /\ length i1 = length l1).
      { exists (firstn (length l1) idx), (nth (length l1) idx 0), (skipn (S (length l1)) idx). split; [apply split_nth; lia|]. rewrite firstn_length. lia. }
      destruct Hs as (i1 & i & i2 & -> & <-).
      destruct (take_split i1 i i2) as (E1 & E2 & _). rewrite E1, E2, (app_nth2 i1) by lia. rewrite Nat.sub_diag. cbn [nth].
      change (firstn 0 (i1 ++ i :: i2) ++ b :: skipn 0 (i1 ++ i :: i2)) with (b :: i1 ++ i :: i2). rewrite swap0_split.
      change (firstn (S (length i1)) (i :: i1 ++ i2)) with (i :: firstn (length i1) (i1 ++ i2)).
      change (skipn (S (length i1)) (i :: i1 ++ i2)) with (skipn (length i1) (i1 ++ i2)).
      destruct (firstn_exact i1 i2) as [-> ->]. reflexivity.
  Qed.
  Lemma move_first_0 (a : array) : shape _ a <> [] -> aeq (move_first 0 a) a.
  Proof.
    intros H. split.
    - cbn. destruct (shape _ a); [congruence|reflexivity].
    - intros idx Hi. cbn [move_first entry]. f_equal. destruct idx as [|i idx]; [|reflexivity].
      cbn [move_first shape] in Hi. destruct (shape _ a); [congruence|]. cbn in Hi. discriminate.
  Qed.
  Lemma mapM_rel (f g : nat -> res T) l : (forall b, In b l -> rrel (f b) (g b)) ->
    match mapM f l, mapM g l with Ok x, Ok y => Forall2 (trel veq) x y | Err e, Err e' => e = e' | _, _ => False end.
  Proof.
    induction l as [|b l IH]; intros H; cbn [mapM]; [constructor|].
    pose proof (H b (or_introl eq_refl)) as Hb. unfold rrel in Hb. destruct (f b), (g b); cbn [bind]; try contradiction; [|exact Hb].
    assert (IH' := IH (fun c Hc => H c (or_intror Hc))). destruct (mapM f l), (mapM g l); cbn [bind]; try contradiction; [|exact IH'].
    constructor; assumption.
  Qed.

  Section Batch.
    Variables (n : nat) (stack : list T -> res T).
    Hypothesis stack_respects : forall l l', Forall2 (trel veq) l l' -> rrel (stack l) (stack l').
    Definition map_lanes (f : F) (arg : nat -> T) : res T := outs <- mapM (fun b => f (arg b)) (seq 0 n) ;; stack outs.

    Lemma map_lanes_rel f arg arg' : respects f -> (forall b, trel veq (arg b) (arg' b)) -> rrel (map_lanes f arg) (map_lanes f arg').
    Proof.
      intros Hf H. unfold map_lanes. pose proof (mapM_rel (fun b => f (arg b)) (fun b => f (arg' b)) (seq 0 n) (fun b _ => Hf _ _ (H b))) as M.
      destruct (mapM _ _), (mapM _ _); cbn [bind]; try contradiction; [apply stack_respects; exact M|exact M].
    Qed.
    Lemma map_lanes_ext f arg arg' : (forall b, arg b = arg' b) -> map_lanes f arg = map_lanes f arg'.
    Proof.
      intros H. unfold map_lanes. f_equal. induction (seq 0 n) as [|b l IH]; [reflexivity|]. cbn [mapM]. rewrite H, IH. reflexivity.
    Qed.

    (** The rule maps the function denoted by the transformations so far over these arguments. *)
    Lemma batch_rule_is fn index f ts (z : tree Z) : fn index = Some f -> valid z ->
      batch_rule V n stack fn index ts (lw (fun p => Leaf (fst p)) z) (lw (fun p => opt (snd p)) z) =
      map_lanes (denote V ts f) (fun b => lw (fun p => match p with (Arr _ a, Some k) => Leaf (Arr _ (take V 0 b (swapaxes0 V k a))) | (v, _) => Leaf v end) z).
    Proof.
      intros Hf Hz. unfold batch_rule.
      assert (E1 : tmap2 is_none (move_to_front V) (lw (fun p => Leaf (fst p)) z) (lw (fun p => opt (snd p)) z) =
                   Ok (lw (fun p : Z => match p with (Arr _ a, Some k) => Leaf (Arr _ (swapaxes0 V k a)) | (v, _) => Leaf v end) z)).
      { apply tmap2_lw_none; [reflexivity|]. intros [v [k|]] Hp; split; try exact I.
        - destruct (Hz v k Hp) as (a & -> & _). reflexivity.
        - destruct v; reflexivity. }
      rewrite E1. cbn [bind].
      assert (E2 : tmap is_none int_to_zero (lw (fun p : Z => opt (snd p)) z) = lw (fun p : Z => opt (option_map (fun _ => 0) (snd p))) z).
      { clear. induction z as [[v [k|]]| |k cs IH] using tree_ind'; cbn; try reflexivity. f_equal.
        induction IH as [|c cs Hc _ IHcs]; cbn; [reflexivity|]. rewrite Hc. f_equal. exact IHcs. }
      rewrite E2. unfold bind_noinline. rewrite Hf. unfold denote at 1. rewrite fold_left_app. cbn [fold_left]. unfold vmapped, map_lanes.
      fold (denote V ts f).
      assert (M : forall l, mapM (fun b => x <- tmap2 is_none (lane V b)
          (lw (fun p : Z => match p with (Arr _ a, Some k) => Leaf (Arr _ (swapaxes0 V k a)) | (v, _) => Leaf v end) z)
          (lw (fun p : Z => opt (option_map (fun _ => 0) (snd p))) z) ;; denote V ts f x) l =
        mapM (fun b => denote V ts f (lw (fun p : Z => match p with (Arr _ a, Some k) => Leaf (Arr _ (take V 0 b (swapaxes0 V k a))) | (v, _) => Leaf v end) z)) l).
      { induction l as [|b l IH]; [reflexivity|]. cbn [mapM]. rewrite IH. f_equal.
        rewrite (tmap2_lw_none (lane V b) _ _ (fun p : Z => match p with (Arr _ a, Some k) => Leaf (Arr _ (take V 0 b (swapaxes0 V k a))) | (v, _) => Leaf v end));
          [reflexivity|reflexivity|].
        intros [v [k|]] Hp; cbn [snd option_map opt].
        - destruct (Hz v k Hp) as (a & -> & _). split; [exact I|reflexivity].
        - destruct v; split; try exact I; reflexivity. }
      rewrite M. reflexivity.
    Qed.

    (** C87. Exactly what the batching rule computes: the function sees each slice with its first axis moved behind. *)
    Theorem C87_batch_exact : forall fn index f ts (z : tree Z), fn index = Some f -> valid z -> respects (denote V ts f) ->
      rrel (batch_rule V n stack fn index ts (lw (fun p => Leaf (fst p)) z) (lw (fun p => opt (snd p)) z))
           (map_lanes (denote V ts f) (fun b => lw (passed_lane b) z)).
    Proof.
      intros fn index f ts z Hf Hz Hr. rewrite (batch_rule_is _ _ _ _ _ Hf Hz). apply map_lanes_rel; [exact Hr|]. intros b. apply trel_lw.
      intros [v [k|]] Hp.
      - destruct (Hz v k Hp) as (a & -> & Hk). destruct k as [|j]; [apply trel_refl|]. constructor. apply swapped_slice. exact Hk.
      - destruct v; apply trel_refl.
    Qed.
    (** C87. The batching rule is right if all batch axes are the first or second axis. *)
    Theorem C87_batch_partial : forall fn index f ts (z : tree Z), fn index = Some f -> valid z -> respects (denote V ts f) ->
      (forall v k, In (v, Some k) (labels z) -> k <= 1) ->
      rrel (batch_rule V n stack fn index ts (lw (fun p => Leaf (fst p)) z) (lw (fun p => opt (snd p)) z))
           (map_lanes (denote V ts f) (fun b => lw (at_lane b) z)).
    Proof.
      intros fn index f ts z Hf Hz Hr H1. rewrite (batch_rule_is _ _ _ _ _ Hf Hz). apply map_lanes_rel; [exact Hr|]. intros b. apply trel_lw.
      intros [v [k|]] Hp.
      - destruct (Hz v k Hp) as (a & -> & Hk). specialize (H1 _ _ Hp). destruct k as [|[|k]]; [apply trel_refl| |lia]. constructor. cbn [veq].
        destruct (swapped_slice 0 b a Hk) as [S1 S2]. destruct (move_first_0 (take V 1 b a)) as [M1 M2].
        { cbn [take shape]. destruct (shape _ a) as [|x [|y r]]; cbn in *; try lia; discriminate. }
        split; [congruence|]. intros idx Hi. rewrite S2 by exact Hi. apply M2. congruence.
      - destruct v; apply trel_refl.
    Qed.
  End Batch.

  (** ** Derivatives *)
  Section Jvp.
    Variable filter_jvp : F -> T -> T -> res (T * T).
    (** Arguments with tangents. *)
    Notation D := (val * option val)%type.
    Definition fixed {X} (z : tree (val * option X)) : T := lw (fun p => match snd p with None => Leaf (fst p) | Some _ => TNone end) z.
    Definition perturbed {X} (z : tree (val * option X)) : T := lw (fun p => match snd p with None => TNone | Some _ => Leaf (fst p) end) z.
    Definition tangents (z : tree D) : T := lw (fun p => opt (snd p)) z.
    Definition vals {X} (z : tree (val * X)) : T := lw (fun p => Leaf (fst p)) z.

    Lemma mask_one (sel : bool -> T -> T) (z : tree D) : sel true TNone = TNone ->
      tmap2 no_leaf (sel_leaf is_none sel) (tmap is_none (fun t : T => Leaf (SBool (is_none t))) (tangents z)) (vals z) =
      Ok (lw (fun p => sel (match snd p with None => true | Some _ => false end) (Leaf (fst p))) z).
    Proof.
      intros H0. unfold tangents, vals.
      induction z as [[v [t|]]| |k cs IH] using tree_ind'; cbn; try reflexivity; [rewrite H0; reflexivity|]. rewrite Nat.eqb_refl.
      match goal with |- rmap _ ?x = Ok (Node k ?y) => enough (E : x = Ok y) by (rewrite E; reflexivity) end.
      induction IH as [|c cs Hc _ IHcs]; [reflexivity|]. cbn [map zipM]. rewrite Hc. cbn [bind]. rewrite IHcs. reflexivity.
    Qed.
    Lemma masked (z : tree D) :
      eqx_partition is_none TNone (vals z) (tmap is_none (fun t : T => Leaf (SBool (is_none t))) (tangents z)) = Ok (fixed z, perturbed z).
    Proof.
      apply partition_fused. rewrite !mask_one by reflexivity. unfold fixed, perturbed.
      split; f_equal; apply lw_ext; intros [v [t|]]; reflexivity.
    Qed.
    Lemma rejoin {X} (z : tree (val * option X)) : eqx_combine no_leaf [perturbed z; fixed z] = Ok (vals z).
    Proof.
      unfold perturbed, fixed, vals.
      pose proof (combine_lw (fun p : val * option X => match snd p with None => TNone | Some _ => Leaf (fst p) end)
        [fun p : val * option X => match snd p with None => Leaf (fst p) | Some _ => TNone end] z) as E. cbn [map] in E. rewrite E.
      - f_equal. apply lw_ext. intros [v [t|]]; reflexivity.
      - intros [v [t|]]; exact I.
    Qed.
    Lemma rejoin' {X} (z : tree (val * option X)) : eqx_combine no_leaf [fixed z; perturbed z] = Ok (vals z).
    Proof.
      unfold perturbed, fixed, vals.
      pose proof (combine_lw (fun p : val * option X => match snd p with None => Leaf (fst p) | Some _ => TNone end)
        [fun p : val * option X => match snd p with None => TNone | Some _ => Leaf (fst p) end] z) as E. cbn [map] in E. rewrite E.
      - f_equal. apply lw_ext. intros [v [t|]]; reflexivity.
      - intros [v [t|]]; exact I.
    Qed.

    (** C87. Differentiated: the primal output is the function's, the tangent is that of the function denoted so far as a function [G] of
        the leaves with a tangent, the others held fixed. *)
    Theorem C87_jvp : forall fn index f ts (z : tree D), fn index = Some f ->
      exists G : F,
        (forall z' : tree D, fixed z' = fixed z -> G (perturbed z') = denote V ts f (vals z')) /\
        jvp_rule V filter_jvp fn index ts (vals z) (tangents z) =
        (out <- denote V ts f (vals z) ;; d <- filter_jvp G (perturbed z) (tangents z) ;; Ok (out, snd d)).
    Proof.
      intros fn index f ts z Hf. exists (fun y => x <- eqx_combine no_leaf [y; fixed z] ;; denote V ts f x). split.
      - intros z' <-. rewrite rejoin. reflexivity.
      - unfold jvp_rule, bind_noinline. rewrite Hf. destruct (denote V ts f (vals z)) as [out|e]; [|reflexivity]. cbn [bind].
        unfold denote at 1. rewrite fold_left_app. cbn [fold_left]. unfold jvp_transform at 1. cbn [pair unpair bind]. rewrite masked.
        cbn [bind]. fold (denote V ts f). destruct (filter_jvp _ _ _) as [[o d]|e]; reflexivity.
    Qed.

    (** ** Transposition *)
    Variable linear_transpose : F -> T -> T -> res T.
    (** Arguments, some of them undefined. *)
    Notation U := (val * option nat)%type.
    Definition with_undef (z : tree U) : T := lw (fun p => match snd p with None => Leaf (fst p) | Some i => Leaf (Undef V i) end) z.
    Definition undefs (z : tree U) : T := lw (fun p => match snd p with None => TNone | Some i => Leaf (Undef V i) end) z.
    (** C87. Transposed: the function denoted so far, as a function [G] of the undefined arguments, is transposed. *)
    Theorem C87_transpose : forall fn index f ts (z : tree U) cts, fn index = Some f ->
      (forall v i, In (v, None) (labels z) -> v <> Undef V i) ->
      exists G : F,
        (forall z' : tree U, fixed z' = fixed z -> G (perturbed z') = denote V ts f (vals z')) /\
        transpose_rule V linear_transpose fn index ts (with_undef z) cts = linear_transpose G (undefs z) cts.
    Proof.
      intros fn index f ts z cts Hf Hz0. assert (Hz : forall v, In (v, None) (labels z) -> is_undef V v = false).
      { intros v Hv. destruct v as [a|i|o]; [reflexivity| |reflexivity]. destruct (Hz0 _ i Hv eq_refl). }
      exists (fun y => x <- eqx_combine no_leaf [fixed z; y] ;; denote V ts f x). split.
      - intros z' <-. rewrite rejoin'. reflexivity.
      - unfold transpose_rule. rewrite partition_lw. cbn [bind].
        assert (E1 : lw (fun a => if is_undef V a then Leaf a else TNone) (with_undef z) = undefs z).
        { unfold with_undef, undefs. rewrite lw_lw. apply lw_ext_in. intros [v [i|]] Hp; cbn; [reflexivity|]. rewrite (Hz v Hp). reflexivity. }
        assert (E2 : lw (fun a => if is_undef V a then TNone else Leaf a) (with_undef z) = fixed z).
        { unfold with_undef, fixed. rewrite lw_lw. apply lw_ext_in. intros [v [i|]] Hp; cbn; [reflexivity|]. rewrite (Hz v Hp). reflexivity. }
        rewrite E1, E2. unfold bind_noinline. rewrite Hf. unfold denote at 1. rewrite fold_left_app. reflexivity.
    Qed.
  End Jvp.

  (** C87. Without an abstract function, abstract evaluation evaluates the function itself, under all transformations. *)
  Theorem C87_abstract : forall (fn_of : T -> res (T -> T -> res T)) ts args,
    denote V ts (abstract_transform V (default_abstract_fn V fn_of)) args = denote V ts (impl_transform V fn_of) args.
  Proof. reflexivity. Qed.
End Props.

(** ** The compiled path *)
Section Lowering.
  Variables (X : Type) (shape_of : X -> list nat).
  (** C87. The callback recovers the transformations and arguments, also those of type float0. *)
  Theorem C87_callback : forall flat : list (leaf X),
    callback_args X shape_of (static_of X flat) (is_float0_of X flat) (map (passed X) (dynamic_of X flat)) = Ok flat.
  Proof.
    intros flat. unfold callback_args, is_float0_of. rewrite !map_length, Nat.eqb_refl. cbn [negb].
    assert (E : forall ds : list (dyn X),
      map (fun p => restore X shape_of (fst p) (snd p))
        (List.combine (map (passed X) ds) (map (fun d => match d with Float0 _ _ => true | Val _ _ => false end) ds)) = ds).
    { induction ds as [|[x|s] ds IH]; cbn; [reflexivity| |]; f_equal; exact IH. }
    rewrite E. induction flat as [|[d|x] flat IH]; cbn; [reflexivity| |].
    - unfold static_of, dynamic_of in IH. rewrite IH. reflexivity.
    - unfold static_of, dynamic_of in IH. rewrite IH. reflexivity.
  Qed.
  (** C87. The flags alone decide which arguments are of type float0: these arrive as zeros of the shape of what was passed. *)
  Theorem C87_callback_flags : forall (xs : list (X * bool)),
    callback_args X shape_of (map (fun _ => None) xs) (map snd xs) (map (fun p => GVal X (fst p)) xs) =
    Ok (map (fun p : X * bool => let (x, z) := p in Dyn X (if z then Float0 X (shape_of x) else Val X x)) xs).
  Proof.
    intros xs. unfold callback_args. rewrite !map_length, Nat.eqb_refl. cbn [negb].
    induction xs as [|[x [|]] xs IH]; cbn; [reflexivity| |]; cbn in IH; rewrite IH; reflexivity.
  Qed.
  (** C87. Any other number of arrays is noticed. *)
  Lemma merge_count : forall static ds r, merge X static ds = Ok r -> length ds = length (List.filter (fun o => match o with None => true | Some _ => false end) static).
  Proof.
    induction static as [|[x|] s IH]; intros [|d ds] r H; cbn in H |- *; try discriminate; try reflexivity;
      bind_inv; try (f_equal; eapply IH; eassumption); eapply (IH _ _ ltac:(eassumption)).
  Qed.
  Theorem C87_callback_count : forall (flat : list (leaf X)) gs fs r,
    callback_args X shape_of (static_of X flat) fs gs = Ok r -> length gs = length (dynamic_of X flat) /\ length fs = length (dynamic_of X flat).
  Proof.
    intros flat gs fs r H. unfold callback_args in H. destruct (Nat.eqb_spec (length gs) (length fs)) as [E|]; [|discriminate]. cbn [negb] in H.
    apply merge_count in H. rewrite map_length, combine_length, E, Nat.min_id in H.
    assert (C : length (List.filter (fun o : option X => match o with None => true | Some _ => false end) (static_of X flat)) = length (dynamic_of X flat)).
    { clear. unfold static_of, dynamic_of. induction flat as [|[d|x] flat IH]; cbn; [reflexivity| |]; [f_equal|]; exact IH. }
    lia.
  Qed.
End Lowering.

(** ** Mapping over the third axis *)
(** An array of shape (2, 2, 2) whose entries are their indices; the function returns its argument, the results of the first lane are kept. *)
Definition cube : array (list nat) := {| shape := [2; 2; 2]; entry := fun idx => idx |}.
Definition first_lane (l : list (tree (val (list nat)))) : res (tree (val (list nat))) := match l with t :: _ => Ok t | [] => Err ValueError end.
(** C87. Mapped over the third axis, the function gets the transpose of each slice: the entry 0, 1 is that of index 1, 0. *)
Theorem C87_batch_refuted :
  exists (f : F (list nat)) (a : array (list nat)) r,
    f (Leaf (Arr _ a)) = Ok (Leaf (Arr _ a)) /\ respects _ f /\
    batch_rule _ 2 first_lane (fun _ => Some f) 0 [] (Leaf (Arr _ a)) (Leaf 2) = Ok (Leaf (Arr _ r)) /\
    shape _ r = [2; 2] /\ shape _ (take _ 2 0 a) = [2; 2] /\
    entry _ (take _ 2 0 a) [0; 1] = [0; 1; 0] /\ entry _ r [0; 1] = [1; 0; 0].
Proof.
  exists (fun t => Ok t), cube. eexists. split; [reflexivity|]. split; [intros t u H; exact H|]. split; [reflexivity|].
  repeat split.
Qed.

(** Two lanes along the second axis, an unbatched object. *)
Example C87_ex :
  (let z := Node 1 [Leaf (Arr _ cube, Some 1); Leaf (Obj _ 7, None)] in
   valid _ z /\ (forall v k, In (v, Some k) (labels z) -> k <= 1)) /\
  (exists r, batch_rule (list nat) 2 first_lane (fun _ => Some (fun t => Ok t)) 0 [] (Node 1 [Leaf (Arr _ cube); Leaf (Obj _ 7)]) (Node 1 [Leaf 1; TNone])
     = Ok (Node 1 [Leaf (Arr _ r); Leaf (Obj _ 7)]) /\ entry _ r [0; 1] = [0; 0; 1]) /\
  callback_args nat (fun _ => []) (static_of nat [Dyn _ (Val _ 3); Sta _ 4; Dyn _ (Float0 _ [2])]) [false; true] [GVal _ 3; GBool _ [2]]
  = Ok [Dyn _ (Val _ 3); Sta _ 4; Dyn _ (Float0 _ [2])].
Proof.
  split; [|split; [|reflexivity]].
  - split; intros v k [E|[E|[]]]; injection E as <- E; try discriminate; subst; try lia. exists cube. split; [reflexivity|cbn; lia].
  - eexists. split; reflexivity.
Qed.
(** The rule for derivatives: a function of two leaves, one with a tangent. *)
Example C87_jvp_ex :
  jvp_rule nat (fun f x t => y <- f x ;; Ok (y, t)) (fun _ => Some (fun t => Ok (Node 0 [t]))) 0 []
    (Node 1 [Leaf (Obj _ 1); Leaf (Obj _ 2)]) (Node 1 [Leaf (Obj _ 5); TNone])
  = Ok (Node 0 [Node 1 [Leaf (Obj _ 1); Leaf (Obj _ 2)]], Node 1 [Leaf (Obj _ 5); TNone]).
Proof. reflexivity. Qed.

Print Assumptions C87_batch_exact.
Print Assumptions C87_batch_partial.
Print Assumptions C87_batch_refuted.
Print Assumptions C87_jvp.
Print Assumptions C87_transpose.
Print Assumptions C87_abstract.
Print Assumptions C87_callback.
Print Assumptions C87_callback_flags.
Print Assumptions C87_callback_count.
