(** Lemmas about error_if. *)
From Verif Require Export Errors_Model Tree_Facts Filters_Proofs.
Local Open Scope nat_scope.
Local Open Scope list_scope.

Lemma fold_max_spec zs : forall z, (In (fold_left Z.max zs z) (z :: zs) /\ forall y, In y (z :: zs) -> (y <= fold_left Z.max zs z)%Z).
Proof.
  induction zs as [|w zs IH]; intros z; cbn [fold_left]; [split; [left; auto|intros y [<-|[]]; lia]|]. destruct (IH (Z.max z w)) as [H1 H2]. split.
  - destruct H1 as [H1|H1]; [|right; right; auto]. rewrite <- H1. destruct (Z.max_spec z w) as [[_ ->]|[_ ->]]; cbn; auto.
  - intros y [<-|[<-|H]]; [| |apply H2; right; auto]; pose proof (H2 (Z.max z w) (or_introl eq_refl)); lia.
Qed.
Lemma existsb_In bs : existsb (fun b => b) bs = true <-> In true bs.
Proof. rewrite existsb_exists. split; [intros (b & H & ->); auto|eauto]. Qed.

Section Errors.
  Variables (V D Ob : Type).
  Variable kind_of : D -> kind.
  Variable fill : D -> V.
  Variable np_type : Ob -> option D.
  Local Notation leaf := (leaf V D Ob).
  Local Notation T := (tree leaf).
  Local Notation nan_like := (nan_like V D Ob kind_of fill np_type).
  Local Notation nan_tree := (nan_tree V D Ob kind_of fill np_type).
  Local Notation is_arr := (leaf_is_array V D Ob).

  Definition poison_leaf (l : leaf) : leaf :=
    match l with
    | Arr _ _ _ d vs => match kind_of d with OtherKind => l | _ => Arr _ _ _ d (map (fun _ => fill d) vs) end
    | Obj _ _ _ _ => l
    end.
  Definition poison (x : T) : T := tmap no_leaf (fun t => match t with Leaf l => Leaf (poison_leaf l) | _ => t end) x.
  (** An array whose dtype is neither inexact nor integer nor boolean to numpy. *)
  Definition has_odd (x : T) : Prop := exists d vs, In (Leaf (Arr V D Ob d vs)) (leaves no_leaf x) /\ kind_of d = OtherKind.
  Definition has_array (x : T) : Prop := exists t, In t (leaves no_leaf x) /\ is_arr t = true.

  Lemma nan_like_arr d vs : nan_like (Arr V D Ob d vs) = Ok (poison_leaf (Arr V D Ob d vs)).
  Proof. cbn. destruct (kind_of d); auto. Qed.
  Lemma nan_tree_arrays x : Forall (fun t => is_arr t = true) (leaves no_leaf x) -> nan_tree x = Ok (poison x).
  Proof.
    induction x as [[d vs|o]| |k cs IH] using tree_ind'; cbn [leaves no_leaf]; intros H.
    - cbn [nan_tree Errors_Model.nan_tree]. rewrite nan_like_arr. auto.
    - inversion H as [|? ? E _]. discriminate.
    - auto.
    - cbn [Errors_Model.nan_tree poison tmap no_leaf]. assert (E : mapM nan_tree cs = Ok (map poison cs)); [|rewrite E; auto].
      induction IH as [|c cs Hc _ IHc]; [auto|]. cbn [map concat] in H. apply Forall_app in H as [H1 H2]. cbn [mapM map]. rewrite Hc by auto. cbn [bind]. rewrite IHc by auto. auto.
  Qed.
  (** The dynamic part of [x]. *)
  Definition dyn (x : T) : T := tmap no_leaf (fun s => if is_arr s then s else TNone) x.
  Definition stat (x : T) : T := tmap no_leaf (fun s => if is_arr s then TNone else s) x.
  Lemma partition_eq x : eqx_partition no_leaf TNone x (Leaf (SCall is_arr)) = Ok (dyn x, stat x).
  Proof. unfold eqx_partition, filter_tree. cbn [tmap2 no_leaf make_filter_tree bind]. rewrite !mask_then_map. auto. Qed.
  Lemma dyn_leaves x : leaves no_leaf (dyn x) = List.filter is_arr (leaves no_leaf x).
  Proof.
    induction x as [[d vs|o]| |k cs IH] using tree_ind'; auto. unfold dyn. cbn [leaves no_leaf tmap]. induction IH as [|c cs Hc _ IHc]; [auto|]. cbn [map concat]. rewrite filter_app. unfold dyn in Hc. rewrite Hc. f_equal. exact IHc.
  Qed.
  Lemma dyn_arrays x : Forall (fun t => is_arr t = true) (leaves no_leaf (dyn x)).
  Proof. rewrite dyn_leaves. apply Forall_forall. intros t H. apply filter_In in H. tauto. Qed.
  Lemma dyn_some x : length (leaves no_leaf (dyn x)) = 0 <-> ~ has_array x.
  Proof.
    rewrite dyn_leaves. unfold has_array. split.
    - intros H (t & H1 & H2). assert (HI : In t (List.filter is_arr (leaves no_leaf x))) by (apply filter_In; auto). destruct (List.filter _ _); [inversion HI|discriminate].
    - intros H. destruct (List.filter _ _) as [|t l] eqn:E; [auto|]. exfalso. apply H. exists t. apply filter_In. rewrite E. left. auto.
  Qed.
  Lemma combine_dyn x : eqx_combine no_leaf [dyn x; stat x] = Ok x.
  Proof. apply (roundtrip_no_leaf _ _ _ _ (partition_eq x)). Qed.
  Lemma combine_poison x : eqx_combine no_leaf [poison (dyn x); stat x] = Ok (poison x).
  Proof.
    rewrite combine_two. induction x as [[d vs|o]| |k cs IH] using tree_ind'; auto.
    unfold poison, dyn, stat. cbn [tmap no_leaf tmap2 is_none orb]. rewrite Nat.eqb_refl. match goal with |- rmap _ ?z = Ok (Node k ?l) => assert (H : z = Ok l); [|rewrite H; auto] end.
    induction IH as [|c cs Hc _ IHc]; [auto|]. cbn [map zipM]. unfold poison, dyn, stat in Hc. rewrite Hc. cbn [bind]. rewrite IHc. auto.
  Qed.

  Local Notation runtime := (runtime V D Ob kind_of fill np_type).
  Lemma runtime_none mode x pred i msgs : ~ has_array x -> runtime mode x pred i msgs = ([], Raises _ _ _ ValueError).
  Proof. intros H. unfold Errors_Model.runtime. rewrite partition_eq. apply dyn_some in H. rewrite H. auto. Qed.
  Lemma has_length x : has_array x -> (length (leaves no_leaf (dyn x)) =? 0) = false.
  Proof. intros H. apply Nat.eqb_neq. intros E. apply dyn_some in E. auto. Qed.
  Lemma runtime_false mode x i msgs : has_array x -> runtime mode x false i msgs = ([], Return _ _ _ x).
  Proof. intros H. unfold Errors_Model.runtime. rewrite partition_eq, has_length by auto. unfold error. cbn [negb]. rewrite combine_dyn. auto. Qed.
  Lemma runtime_raise x i msgs : has_array x -> runtime "raise" x true i msgs = ([], match py_index msgs i with Ok m => RunError _ _ _ m | Err _ => CallbackFails _ _ _ end).
  Proof. intros H. unfold Errors_Model.runtime. rewrite partition_eq, has_length by auto. auto. Qed.
  Lemma runtime_nan x i msgs : has_array x -> runtime "nan" x true i msgs = ([], Return _ _ _ (poison x)).
  Proof. intros H. unfold Errors_Model.runtime. rewrite partition_eq, has_length by auto. unfold error. cbn [negb String.eqb Ascii.eqb Bool.eqb]. rewrite nan_tree_arrays by apply dyn_arrays. rewrite combine_poison. auto. Qed.
  Lemma odd_spec x : existsb (odd_leaf V D Ob kind_of) (leaves no_leaf (dyn x)) = true <-> has_odd x.
  Proof.
    rewrite dyn_leaves, existsb_exists. unfold has_odd. split.
    - intros (t & H1 & H2). apply filter_In in H1 as [H1 _]. destruct t as [[d vs|o]| |]; try discriminate. exists d, vs. split; [auto|]. cbn in H2. destruct (kind_of d); congruence.
    - intros (d & vs & H1 & H2). eexists. split; [apply filter_In; split; [exact H1|auto]|]. cbn. rewrite H2. auto.
  Qed.
  Lemma runtime_break x i msgs m : has_array x -> ~ has_odd x -> py_index msgs i = Ok m -> runtime "breakpoint" x true i msgs = ([RunBreak m], Return _ _ _ (poison x)).
  Proof.
    intros H HO E. unfold Errors_Model.runtime. rewrite partition_eq, has_length by auto. unfold error. cbn [negb String.eqb Ascii.eqb Bool.eqb]. rewrite E.
    destruct (existsb (odd_leaf V D Ob kind_of) (leaves no_leaf (dyn x))) eqn:EO; [apply odd_spec in EO; contradiction|]. rewrite nan_tree_arrays by apply dyn_arrays. rewrite combine_poison. auto.
  Qed.
  Lemma runtime_break_odd x i msgs m : has_odd x -> py_index msgs i = Ok m -> runtime "breakpoint" x true i msgs = ([RunBreak m], CallbackFails _ _ _).
  Proof.
    intros HO E. assert (H : has_array x) by (destruct HO as (d & vs & HI & _); eexists; split; [exact HI|auto]).
    unfold Errors_Model.runtime. rewrite partition_eq, has_length by auto. unfold error. cbn [negb String.eqb Ascii.eqb Bool.eqb]. rewrite E. apply odd_spec in HO. rewrite HO. auto.
  Qed.
  (** An object in [x] that is no array and no name of an odd dtype. *)
  Lemma nan_tree_object x o : In (Leaf (Obj V D Ob o)) (leaves no_leaf x) -> match np_type o with Some d => kind_of d <> OtherKind | None => True end ->
    exists e, nan_tree x = Err e.
  Proof.
    intros HI HO. induction x as [[d vs|o']| |k cs IH] using tree_ind'; cbn [leaves no_leaf] in HI.
    - destruct HI as [HI|[]]; discriminate.
    - destruct HI as [HI|[]]. injection HI as ->. cbn. destruct (np_type o) as [d|]; [|eexists; reflexivity]. destruct (kind_of d); try (eexists; reflexivity). congruence.
    - destruct HI.
    - cbn [Errors_Model.nan_tree]. assert (E : exists e, mapM nan_tree cs = Err e); [|destruct E as [e ->]; eexists; reflexivity].
      induction IH as [|c cs Hc _ IHc]; [destruct HI|]. cbn [map concat] in HI. apply in_app_or in HI as [HI|HI]; cbn [mapM].
      + destruct (Hc HI) as [e ->]. eexists. reflexivity.
      + destruct (IHc HI) as [e E]. destruct (nan_tree c) as [y|e']; [|eexists; reflexivity]. cbn [bind]. rewrite E. eexists. reflexivity.
  Qed.
  Lemma py_index_spec {X} (l : list X) i m : py_index l i = Ok m <->
    (exists n, nth_error l n = Some m /\ (i = Z.of_nat n \/ (i < 0)%Z /\ (i + Z.of_nat (length l))%Z = Z.of_nat n)).
  Proof.
    unfold py_index. set (j := if (i <? 0)%Z then _ else _). split.
    - destruct ((0 <=? j)%Z && (j <? Z.of_nat (length l))%Z) eqn:E; [|discriminate]. destruct (nth_error l (Z.to_nat j)) as [x|] eqn:N; [|discriminate]. intros H. injection H as ->. exists (Z.to_nat j). split; [auto|]. subst j. destruct (i <? 0)%Z eqn:S; lia.
    - intros (n & N & H). assert (HL : n < length l) by (apply nth_error_Some; congruence). assert (Ej : j = Z.of_nat n) by (subst j; destruct (i <? 0)%Z eqn:S; lia). rewrite Ej, Nat2Z.id, N. replace ((0 <=? Z.of_nat n)%Z && (Z.of_nat n <? Z.of_nat (length l))%Z) with true by lia. auto.
  Qed.
End Errors.
