(** C31: filter_vmap. *)
From Verif Require Import Vmap_Model Vmap_Spec Vmap_Proofs Vmap_Proofs2.
Local Open Scope nat_scope.

(** ** Resolution of axes: succeeds iff the specification covers the tree, and then leaf by leaf. *)
Theorem C31_resolve : forall X (t : tree (gleaf X)) a ax, resolve_axes t a = Ok ax <-> resolves a t ax.
Proof. intros. apply resolve_iff. Qed.
Print Assumptions C31_resolve.
(** By position: the axis at a leaf is decided by the only part of the specification above it. *)
Theorem C31_resolve_at : forall X (a : tree (axis_spec X)) t ax p l, resolve_axes t a = Ok ax -> sub t p = Some (Leaf l) ->
  exists p1 p2, p = p1 ++ p2 /\
    ((sub a p1 = Some TNone /\ sub ax p = Some TNone) \/
     (exists z, sub a p1 = Some (Leaf (AInt z)) /\ sub ax p = Some (Leaf z)) \/
     (exists g, sub a p1 = Some (Leaf (ACall g)) /\ sub ax p = Some (of_opt (g l)))).
Proof.
  intros X a t ax p l H. apply resolve_iff in H. revert t ax p H.
  assert (HW : forall g (t : tree (gleaf X)) ax, leafwise g t ax -> forall p, sub t p = Some (Leaf l) -> sub ax p = Some (of_opt (g l))).
  { induction t as [l'| |k cs IH] using tree_ind'; intros ax H p Hp; inversion H as [?| |? ? xs HF]; subst.
    - destruct p; [|discriminate]. cbn in Hp. injection Hp as ->. auto.
    - destruct p; discriminate.
    - destruct p as [|i p]; [discriminate|]. cbn [sub] in *. destruct (nth_error cs i) as [c|] eqn:E; [|discriminate]. clear H. revert i xs HF E. induction IH as [|c' cs Hc _ IHc]; intros i xs HF E; [destruct i; discriminate|].
      inversion HF; subst. destruct i; cbn in *; [injection E as ->; eauto|eauto]. }
  induction a as [s| |k ss IH] using tree_ind'; intros t ax p H Hp.
  - inversion H as [|? ? ? HL|? ? ? HL|]; subst; exists [], p; (split; [auto|]); right; [left|right]; eexists; (split; [reflexivity|]); apply (HW _ _ _ HL p Hp).
  - inversion H as [? ? HL| | |]; subst. exists [], p. split; [auto|]. left. split; [auto|]. apply (HW _ _ _ HL p Hp).
  - inversion H as [| | |? ? cs xs HL]; subst. destruct p as [|i p]; [discriminate|]. cbn [sub] in *. destruct (nth_error cs i) as [c|] eqn:E; [|discriminate].
    assert (HK : exists s x, nth_error ss i = Some s /\ nth_error xs i = Some x /\ resolves s c x /\ (forall t ax p, resolves s t ax -> sub t p = Some (Leaf l) ->
      exists p1 p2, p = p1 ++ p2 /\ ((sub s p1 = Some TNone /\ sub ax p = Some TNone) \/ (exists z, sub s p1 = Some (Leaf (AInt z)) /\ sub ax p = Some (Leaf z)) \/ (exists g, sub s p1 = Some (Leaf (ACall g)) /\ sub ax p = Some (of_opt (g l)))))).
    { clear H. revert i cs xs HL E. induction IH as [|s ss Hs _ IHs]; intros i cs xs HL E; inversion HL; subst; [destruct i; discriminate|]. destruct i; cbn in *; [injection E as ->; eauto 8|eauto]. }
    destruct HK as (s & x & E1 & E2 & HR & HI). destruct (HI _ _ _ HR Hp) as (p1 & p2 & -> & HP). exists (i :: p1), p2. split; [auto|]. cbn [sub app]. rewrite E1, E2. auto.
Qed.
Print Assumptions C31_resolve_at.
(** [if_array z] maps the arrays along axis [z] and nothing else. *)
Theorem C31_if_array : forall X (t : tree (gleaf X)) z,
  exists ax, resolve_axes t (Leaf (if_array z)) = Ok ax /\ forall p,
    (forall a, sub t p = Some (Leaf (Arr a)) -> sub ax p = Some (Leaf z)) /\
    (forall l, sub t p = Some (Leaf l) -> (forall a, l <> Arr a) -> sub ax p = Some TNone).
Proof.
  intros X t z. assert (E : exists ax, resolve_axes t (Leaf (if_array z)) = Ok ax) by (eexists; reflexivity).
  destruct E as [ax E]. exists ax. split; [exact E|]. intros p.
  assert (H : forall l, sub t p = Some (Leaf l) -> sub ax p = Some (of_opt (match l with Arr _ => Some z | _ => None end))).
  { intros l Hl. destruct (C31_resolve_at _ _ _ _ _ _ E Hl) as (p1 & p2 & _ & [[H _]|[(y & H & _)|(g & H & H2)]]).
    - destruct p1; discriminate.
    - destruct p1; discriminate.
    - destruct p1; [|discriminate]. cbn [sub] in H. unfold if_array in H.
      assert (Hg : g = fun l => match l with Arr _ => Some z | _ => None end) by congruence. rewrite Hg in H2. exact H2. }
  split.
  - intros a Ha. exact (H _ Ha).
  - intros l Hl Hn. rewrite (H _ Hl). destruct l as [a| | ] eqn:El; try reflexivity. destruct (Hn a eq_refl).
Qed.
Print Assumptions C31_if_array.
Example C31_resolve_ex :
  resolve_axes (Node 0 [Leaf (Arr tt); Node 1 [Leaf (Num 3); Leaf (Arr tt); TNone]; Leaf (Arr tt)]) (Node 0 [Leaf (AInt 2); Leaf (if_array 0); TNone]) = Ok (Node 0 [Leaf 2%Z; Node 1 [TNone; Leaf 0%Z; TNone]; TNone]) /\
  resolve_axes (Node 0 [Leaf (Arr tt)]) (Node 0 [Leaf (AInt 2); TNone]) = Err ValueError /\
  resolve_axes (Node 0 [Leaf (Arr tt)]) (Leaf ABad) = Err ValueError.
Proof. split; [|split]; reflexivity. Qed.

(** ** Named axes *)
Fixpoint assoc {A} (k : string) (d : list (string * A)) : option A :=
  match d with [] => None | (k', v) :: d' => if String.eqb k k' then Some v else assoc k d' end.
Lemma pop_spec {X} k (d : list (string * tree (axis_spec X))) : NoDup (map fst d) ->
  fst (pop k d) = assoc k d /\ snd (pop k d) = List.filter (fun e => negb (String.eqb k (fst e))) d.
Proof.
  induction d as [|[k' v] d IH]; intros HN; [auto|]. cbn [pop assoc List.filter fst]. inversion HN as [|? ? H1 H2]; subst. destruct (String.eqb_spec k k') as [->|N]; cbn [negb].
  - split; [auto|]. cbn [snd]. clear - H1. cbn [map fst] in H1. induction d as [|[k v'] d IH]; [auto|]. cbn [List.filter fst map In] in *. destruct (String.eqb_spec k' k) as [->|N]; [tauto|]. cbn [negb]. f_equal. tauto.
  - destruct (IH H2) as [-> ->]. auto.
Qed.
Lemma filter_keys {X} (f : string * tree (axis_spec X) -> bool) d : NoDup (map fst d) -> NoDup (map fst (List.filter f d)).
Proof.
  induction d as [|e d IH]; intros HN; [auto|]. inversion HN as [|? ? H1 H2]; subst. cbn [List.filter]. destruct (f e); [|auto]. cbn [map]. constructor; [|auto].
  intros HI. apply H1. apply in_map_iff in HI as (e' & <- & HI). apply filter_In in HI as [HI _]. apply in_map. auto.
Qed.
Lemma pops_spec {X} : forall n params (d : list (string * tree (axis_spec X))), NoDup (map fst d) -> NoDup params ->
  fst (pops n params d) = map (fun p => match assoc p d with Some v => v | None => Leaf (if_array 0) end) (firstn n params) /\
  snd (pops n params d) = List.filter (fun e => negb (existsb (String.eqb (fst e)) (firstn n params))) d.
Proof.
  assert (HT : forall d : list (string * tree (axis_spec X)), d = List.filter (fun _ => true) d) by (induction d as [|e d IH]; cbn; congruence).
  induction n as [|n IH]; intros [|p ps] d HN HP; cbn [pops firstn map fst snd existsb negb]; try (split; [auto|apply HT]).
  destruct (pop_spec p d HN) as [-> ->]. inversion HP as [|? ? H1 H2]; subst. destruct (IH ps (List.filter (fun e => negb (String.eqb p (fst e))) d) (filter_keys _ _ HN) H2) as [-> ->]. split.
  - f_equal. apply map_ext_in. intros q Hq. assert (E : q <> p) by (intros ->; apply H1; rewrite <- (firstn_skipn n ps); apply in_or_app; auto).
    replace (assoc q (List.filter (fun e => negb (String.eqb p (fst e))) d)) with (assoc q d); [auto|]. clear - E. induction d as [|[k v] d IH]; [auto|]. cbn [assoc List.filter fst].
    destruct (String.eqb_spec p k) as [->|N]; cbn [negb assoc]; destruct (String.eqb_spec q k); congruence.
  - clear. induction d as [|e d IH]; [auto|]. cbn [List.filter]. rewrite (String.eqb_sym (fst e) p). destruct (String.eqb p (fst e)); cbn [negb orb List.filter]; rewrite IH; auto.
Qed.
(** With a dictionary: every key must be the name of a parameter that is passed; the others get the default. *)
Theorem C31_named : forall X (params : list string) (d : list (string * tree (axis_spec X))) n, NoDup (map fst d) -> NoDup params ->
  ((forall k, In k (map fst d) -> In k (firstn n params)) ->
     named_in_axes params (InDict d) n = Ok (Node tuple_kind (map (fun p => match assoc p d with Some v => v | None => Leaf (if_array 0) end) (firstn n params)))) /\
  ((exists k, In k (map fst d) /\ ~ In k (firstn n params)) -> named_in_axes params (InDict d) n = Err ValueError).
Proof.
  intros X params d n HN HP. unfold named_in_axes. destruct (pops_spec n params d HN HP) as [-> ->].
  assert (HE : forall k, existsb (String.eqb k) (firstn n params) = true <-> In k (firstn n params)).
  { intros k. rewrite existsb_exists. split; [intros (x & Hx & E); apply String.eqb_eq in E; subst; auto|intros H; exists k; rewrite String.eqb_refl; auto]. }
  split.
  - intros H. assert (HF : List.filter (fun e => negb (existsb (String.eqb (fst e)) (firstn n params))) d = []); [|rewrite HF; auto].
    clear HN. induction d as [|e d IH]; [auto|]. cbn [List.filter]. rewrite (proj2 (HE (fst e))) by (apply H; left; auto). apply IH. intros k Hk. apply H. right. auto.
  - intros (k & H1 & H2). apply in_map_iff in H1 as (e & <- & H1). destruct (List.filter _ d) eqn:EF; [|auto]. exfalso. apply (in_nil (a := e)). rewrite <- EF. apply filter_In. split; [auto|].
    destruct (existsb _ _) eqn:E; [apply HE in E; contradiction|auto].
Qed.
Print Assumptions C31_named.
Example C31_named_ex : 
  named_in_axes (X := unit) ["x"; "y"; "z"]%string (InDict [("y"%string, Leaf (AInt 1))]) 2 = Ok (Node 0 [Leaf (if_array 0); Leaf (AInt 1)]) /\
  named_in_axes (X := unit) ["x"; "y"; "z"]%string (InDict [("z"%string, Leaf (AInt 1))]) 2 = Err ValueError.
Proof. split; reflexivity. Qed.

(** ** The whole wrapper: slice by slice the result is what the function returns for the slices of the
    arguments; what has axis [None] is passed whole, and returned whole. The output axes are those that
    [out_axes] gives for the output as traced ([out], whose elements are what the function returns). *)
Theorem C31_pointwise : forall V asize atake astack amove of_num uniform, array_laws V asize atake astack amove uniform ->
  forall fn fc, traces V uniform fn fc ->
  forall out_spec params ia axis_size args r,
  filter_vmap V asize atake astack amove of_num fn out_spec params ia axis_size args 0 = Ok r ->
  exists spec iax out oax, named_in_axes params ia (length args) = Ok spec /\ resolves spec (Node tuple_kind args) iax /\ resolves out_spec out oax /\
    ((leaves no_leaf iax = [] /\ axis_size = None /\ leaves no_leaf oax = [] /\ fc (Node tuple_kind args) = Ok r /\ elem_tree V 0 out r) \/
     (exists n, sizes_are V asize n iax (Node tuple_kind args) /\ (axis_size = None \/ axis_size = Some n) /\ batched V uniform n out /\
        forall i, i < n -> exists t o, slice V atake of_num false i iax (Node tuple_kind args) t /\ fc t = Ok o /\ elem_tree V i out o /\ slice V atake of_num true i oax r o)).
Proof. intros V asize atake astack amove of_num uniform HL fn fc HT out_spec params ia axs args r H. eapply filter_vmap_ok; eauto. Qed.
Print Assumptions C31_pointwise.
(** Sizes: whatever is mapped, of the arguments and of the result, has one and the same size along its axis. *)
Theorem C31_sizes : forall V asize atake astack amove of_num uniform, array_laws V asize atake astack amove uniform ->
  size_law V asize astack amove uniform -> forall fn fc, traces V uniform fn fc ->
  forall out_spec params ia axis_size args r,
  filter_vmap V asize atake astack amove of_num fn out_spec params ia axis_size args 0 = Ok r ->
  exists spec iax out oax, named_in_axes params ia (length args) = Ok spec /\ resolves spec (Node tuple_kind args) iax /\ resolves out_spec out oax /\
    ((leaves no_leaf iax = [] /\ axis_size = None /\ leaves no_leaf oax = []) \/
     exists n, sizes_are V asize n iax (Node tuple_kind args) /\ (axis_size = None \/ axis_size = Some n) /\ sizes_are V asize n oax r).
Proof.
  intros V asize atake astack amove of_num uniform HL HS fn fc HT out_spec params ia axs args r H.
  destruct (filter_vmap_full V asize atake astack amove of_num uniform HL fn fc HT _ _ _ _ _ _ _ H) as (spec & iax & out & oax & H1 & H2 & H3 & H4).
  exists spec, iax, out, oax. do 3 (split; [auto|]). destruct H4 as [(A & B & C & _)|(n & A & B & _ & C & _ & _)]; [left; auto|]. right. exists n. auto.
Qed.
Print Assumptions C31_sizes.
(** Keyword arguments are refused. *)
Theorem C31_kwargs : forall V asize atake astack amove of_num fn out_spec params ia axis_size args n, 0 < n ->
  filter_vmap V asize atake astack amove of_num fn out_spec params ia axis_size args n = Err RuntimeError.
Proof. intros. unfold filter_vmap. destruct (Nat.ltb_spec 0 n); [auto|lia]. Qed.
Print Assumptions C31_kwargs.
(** The assertion of line 181 cannot fail. *)
Lemma def_eqb_eq a : forall b, def_eqb a b = true -> a = b.
Proof.
  induction a as [[]| |k cs IH] using tree_ind'; intros [[]| |k' cs'] H; try discriminate; auto. cbn [def_eqb] in H. apply andb_true_iff in H as [H1 H2]. apply Nat.eqb_eq in H1 as <-. f_equal.
  revert cs' H2. induction IH as [|c cs Hc _ IHc]; intros [|c' cs'] H2; try discriminate; auto. apply andb_true_iff in H2 as [H2 H3]. f_equal; auto.
Qed.
Theorem C31_assertion : forall V astack of_num n (out : tree (gleaf (bat V))) spec oax nv vd v, resolve_axes out spec = Ok oax ->
  eqx_partition is_none TNone out (mask_spec oax) = Ok (nv, vd) -> upM (stack_leaf V astack of_num n) vd = Ok v -> treedef no_leaf v = treedef no_leaf oax.
Proof.
  intros V astack of_num n out spec oax nv vd v H1 H2 H3. apply resolve_iff, resolves_axes in H1. rewrite (partition_axes is_none) in H2 by auto. injection H2 as <- <-.
  apply def_eqb_eq. eapply def_ok; eauto.
Qed.
Print Assumptions C31_assertion.

(** *** An instance: nested lists. *)
Local Open Scope Z_scope.
Inductive arr := Sc (z : Z) | Rw (l : list arr).
Definition row (a : arr) (i : nat) : arr := match a with Rw l => nth i l (Sc 0) | _ => Sc 0 end.
Fixpoint take (k : nat) (a : arr) (i : nat) : arr :=
  match k with O => row a i | S k' => match a with Rw l => Rw (map (fun b => take k' b i) l) | _ => a end end.
Definition width (a : arr) : option nat := match a with Rw l => Some (length l) | _ => None end.
Fixpoint size (k : nat) (a : arr) : res nat :=
  match k, a with O, Rw l => Ok (length l) | S k', Rw (b :: _) => size k' b | _, _ => Err ValueError end.
Fixpoint move (k : nat) (a : arr) : res arr :=
  match k, a with
  | O, _ => Ok a
  | S k', Rw ((Rw r0 :: _) as l) =>
      if forallb (fun b => match width b with Some w => Nat.eqb w (length r0) | None => false end) l
      then rmap Rw (mapM (fun j => move k' (Rw (map (fun b => row b j) l))) (seq 0 (length r0))) else Err ValueError
  | _, _ => Err ValueError
  end.
Definition on_axis {A} (z : Z) (f : nat -> res A) : res A := if z <? 0 then Err ValueError else f (Z.to_nat z).
Definition i_size (a : arr) (z : Z) := on_axis z (fun k => size k a).
Definition i_take (a : arr) (z : Z) (i : nat) := take (Z.to_nat z) a i.
Definition i_move (a : arr) (z : Z) := on_axis z (fun k => move k a).
Definition any (l : list arr) : Prop := True.
Lemma move_take : forall k l b i, (i < length l)%nat -> move k (Rw l) = Ok b -> take k b i = nth i l (Sc 0).
Proof.
  induction k as [|k IH]; intros l b i Hi H; [cbn in H; injection H as <-; auto|].
  cbn [move] in H. destruct l as [|[z|r0] l]; try discriminate. destruct (forallb _ _) eqn:EF; [|discriminate]. apply rmap_ok in H as (rows & HR & ->). cbn [take].
  set (ll := Rw r0 :: l) in *. assert (HW : exists ri, nth i ll (Sc 0) = Rw ri /\ length ri = length r0).
  { rewrite forallb_forall in EF. specialize (EF (nth i ll (Sc 0)) (nth_In _ _ Hi)). destruct (nth i ll (Sc 0)) as [z|ri]; [discriminate|]. cbn in EF. apply Nat.eqb_eq in EF. eauto. }
  destruct HW as (ri & E & EL). rewrite E. f_equal. apply nth_error_ext. intros j. rewrite nth_error_map. destruct (nth_error (seq 0 (length r0)) j) as [j'|] eqn:EJ.
  - assert (j' = j /\ (j < length r0)%nat) as [-> Hj]. { assert (Hj : (j < length (seq 0 (length r0)))%nat) by (apply nth_error_Some; congruence). rewrite seq_length in Hj. rewrite (nth_error_nth' _ O) in EJ by (rewrite seq_length; auto). rewrite seq_nth in EJ by auto. injection EJ as <-. auto. }
    destruct (mapM_nth _ _ _ HR j j EJ) as (y & Hy & HM). rewrite Hy. cbn [option_map]. rewrite (IH _ _ i) with (2 := HM); [|rewrite map_length; auto].
    pose proof (map_nth (fun b => row b j) ll (Sc 0) i) as EN. cbn [row] in EN. rewrite EN, E. cbn [row]. symmetry. apply nth_error_nth'. lia.
  - apply nth_error_None in EJ. rewrite seq_length in EJ. assert (nth_error rows j = None) as -> by (apply nth_error_None; apply mapM_length in HR; rewrite seq_length in HR; lia).
    cbn. symmetry. apply nth_error_None. lia.
Qed.
Example C31_laws_ex : array_laws arr i_size i_take Rw i_move any.
Proof.
  repeat split; unfold any; auto.
  - intros l i a _ H. cbn. apply nth_error_nth. auto.
  - intros l z b i _ Hi H. unfold i_move, on_axis, i_take in *. destruct (z <? 0) eqn:Ez; [discriminate|]. rewrite (move_take _ _ _ _ Hi H). reflexivity.
Qed.
(** The function (x, y, n) |-> (x, y[0], "7"): the first two may be batched. *)
Definition ex_fn (t : tree (gleaf (bat arr))) : res (tree (gleaf (bat arr))) := match t with Node k [x; y; z] => Ok (Node k [z; x; y]) | _ => Err TypeError end.
Definition ex_fc (t : tree (gleaf arr)) : res (tree (gleaf arr)) := match t with Node k [x; y; z] => Ok (Node k [z; x; y]) | _ => Err TypeError end.
Example C31_traces_ex : traces arr any ex_fn ex_fc.
Proof.
  intros n t o HB H. destruct t as [l| |k [|x [|y [|z [|? ?]]]]]; try discriminate. injection H as <-. split.
  - inversion HB as [| |? ? HF]; subst. inversion HF as [|? ? H1 HF1]; subst. inversion HF1 as [|? ? H2 HF2]; subst. inversion HF2 as [|? ? H3 _]; subst. repeat constructor; auto.
  - intros i t' _ HE. inversion HE as [| |? ? ys HF]; subst. inversion HF as [|? a ? ? H1 HF1]; subst. inversion HF1 as [|? b ? ? H2 HF2]; subst. inversion HF2 as [|? c ? ? H3 HF3]; subst. inversion HF3; subst.
    exists (Node k [c; a; b]). split; [auto|]. constructor. repeat constructor; auto.
Qed.
Example C31_ex : let mat := Rw [Rw [Sc 1; Sc 2; Sc 3]; Rw [Sc 4; Sc 5; Sc 6]] in
  filter_vmap arr i_size i_take Rw i_move Sc ex_fn (Node 0%nat [Leaf (if_array 0); Leaf (AInt 1); TNone]) [] (InTree (Node 0%nat [Leaf (AInt 0); TNone; Leaf (if_array 0)])) None
     [Leaf (Arr mat); Leaf (Arr mat); Leaf (Obj 7)] 0 = Ok (Node 0%nat [Leaf (Obj 7); Leaf (Arr (Rw [Rw [Sc 1; Sc 4]; Rw [Sc 2; Sc 5]; Rw [Sc 3; Sc 6]])); Leaf (Arr mat)]) /\
  (* a batched value cannot be returned with out_axes=None *)
  filter_vmap arr i_size i_take Rw i_move Sc ex_fn TNone [] (InTree (Leaf (if_array 0))) None [Leaf (Arr mat); Leaf (Arr mat); Leaf (Obj 7)] 0 = Err ValueError /\
  (* sizes must agree *)
  filter_vmap arr i_size i_take Rw i_move Sc ex_fn (Leaf (if_array 0)) [] (InTree (Node 0%nat [Leaf (AInt 0); Leaf (AInt 1); TNone])) None [Leaf (Arr mat); Leaf (Arr mat); Leaf (Obj 7)] 0 = Err ValueError /\
  (* nothing is mapped *)
  filter_vmap arr i_size i_take Rw i_move Sc ex_fn TNone [] (InTree TNone) None [Leaf (Arr mat); Leaf (Arr mat); Leaf (Obj 7)] 0 = Ok (Node 0%nat [Leaf (Obj 7); Leaf (Arr mat); Leaf (Arr mat)]).
Proof. split; [|split; [|split]]; vm_compute; reflexivity. Qed.
(** Arrays that only move to axis 0 have both laws. *)
Example C31_sizes_ex : let mv := fun (a : arr) z => if z =? 0 then Ok a else Err ValueError in
  array_laws arr i_size i_take Rw mv any /\ size_law arr i_size Rw mv any.
Proof.
  split; [repeat split; unfold any; auto|].
  - intros l i a _ H. cbn. apply nth_error_nth. auto.
  - intros l z b i _ Hi H. destruct (Z.eqb_spec z 0) as [->|]; [|discriminate]. injection H as <-. reflexivity.
  - intros l z b _ H. destruct (Z.eqb_spec z 0) as [->|]; [|discriminate]. injection H as <-. reflexivity.
Qed.
