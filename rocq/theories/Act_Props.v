(** C92: every neuron of an MLP has its own copy of a learnt activation. *)
From Verif Require Import Act_Model Vmap_Spec Vmap_Proofs Vmap_Proofs2 Vmap_Props.
Local Open Scope nat_scope.
Local Open Scope list_scope.

(** [g] on every array of a PyTree, the rest as it is. *)
Fixpoint on_arrays {V W} (g : V -> W) (t : tree (gleaf V)) : tree (gleaf W) :=
  match t with
  | Leaf (Arr a) => Leaf (Arr (g a))
  | Leaf (Num z) => Leaf (Num z)
  | Leaf (Obj n) => Leaf (Obj n)
  | TNone => TNone
  | Node k cs => Node k (map (on_arrays g) cs)
  end.
(** All arrays of a PyTree have [n] elements along axis 0. *)
Definition lengths {V} (asize : V -> Z -> res nat) (n : nat) (t : tree (gleaf V)) : Prop :=
  forall p a, sub t p = Some (Leaf (Arr a)) -> asize a 0%Z = Ok n.

Lemma on_arrays_node {V W} (g : V -> W) k cs : on_arrays g (Node k cs) = Node k (map (on_arrays g) cs).
Proof. auto. Qed.
Lemma on_arrays_comp {U V W} (g : V -> W) (f : U -> V) t : on_arrays g (on_arrays f t) = on_arrays (fun x => g (f x)) t.
Proof.
  induction t as [[a|z|n]| |k cs IH] using tree_ind'; auto. rewrite !on_arrays_node. f_equal. rewrite map_map. apply map_ext_Forall. exact IH.
Qed.
Lemma on_arrays_ext {V W} (f g : V -> W) t : (forall a, f a = g a) -> on_arrays f t = on_arrays g t.
Proof.
  intros H. induction t as [[a|z|n]| |k cs IH] using tree_ind'; cbn [on_arrays]; rewrite ?H; auto. f_equal. apply map_ext_Forall. exact IH.
Qed.
Lemma on_arrays_id {V} (f : V -> V) t : (forall a, f a = a) -> on_arrays f t = t.
Proof.
  intros H. induction t as [[a|z|n]| |k cs IH] using tree_ind'; cbn [on_arrays]; rewrite ?H; auto. f_equal. rewrite <- (map_id cs) at 2. apply map_ext_Forall. exact IH.
Qed.
Lemma up_emb {V} (t : tree (gleaf V)) : up (emb V) t = on_arrays (@Unb V) t.
Proof.
  induction t as [[a|z|n]| |k cs IH] using tree_ind'; auto. rewrite up_node, on_arrays_node. f_equal. apply map_ext_Forall. exact IH.
Qed.

Section Act.
  Variable V : Type.
  Variable asize : V -> Z -> res nat.
  Variable atake : V -> Z -> nat -> V.
  Variable astack : list V -> V.
  Variable amove : V -> Z -> res V.
  Variable of_num : Z -> V.
  Local Notation vd := (vmap_default V asize atake astack amove of_num).
  Local Notation copies := (copies V asize atake astack amove of_num).
  Local Notation final_copies := (final_copies V asize atake astack amove of_num).

  Fixpoint if_axes {X} (t : tree (gleaf X)) : tree Z :=
    match t with Leaf (Arr _) => Leaf 0%Z | Leaf _ => TNone | TNone => TNone | Node k cs => Node k (map if_axes cs) end.
  Lemma if_axes_resolves {X} (t : tree (gleaf X)) : resolves (Leaf (if_array 0)) t (if_axes t).
  Proof.
    apply RS_call. induction t as [l| |k cs IH] using tree_ind'; [|constructor|].
    - destruct l; cbn [if_axes]; exact (LW_leaf _ _).
    - cbn [if_axes]. constructor. induction IH; constructor; auto.
  Qed.
  Lemma resolves_if_axes {X} (t : tree (gleaf X)) ax : resolves (Leaf (if_array 0)) t ax -> ax = if_axes t.
  Proof. intros H. apply resolve_iff in H. assert (H2 := if_axes_resolves t). apply resolve_iff in H2. congruence. Qed.

  Hypothesis move0 : forall l, amove (astack l) 0%Z = Ok (astack l).

  Fixpoint arrs (g : V -> V) (t : tree (gleaf V)) : tree (gleaf V) :=
    match t with Leaf (Arr a) => Leaf (Arr (g a)) | Leaf _ => TNone | TNone => TNone | Node k cs => Node k (map (arrs g) cs) end.
  Fixpoint nones (t : tree (gleaf V)) : tree (gleaf V) :=
    match t with Leaf _ => TNone | TNone => TNone | Node k cs => Node k (map nones cs) end.
  Fixpoint rest (t : tree (gleaf V)) : tree (gleaf V) :=
    match t with Leaf (Arr _) => TNone | Leaf l => Leaf l | TNone => TNone | Node k cs => Node k (map rest cs) end.
  Lemma zipw_map {A B C D E} (f : A -> B -> C) (g : D -> A) (h : E -> B) (e : D -> E) (r : D -> C) cs :
    Forall (fun c => f (g c) (h (e c)) = r c) cs -> zipw f (map g cs) (map h (map e cs)) = map r cs.
  Proof. induction 1 as [|c cs H _ IH]; cbn [map zipw]; [auto|]. rewrite H, IH. auto. Qed.
  Lemma mapM_map_Forall {A B C} (f : B -> res C) (g : A -> B) (h : A -> C) cs : Forall (fun c => f (g c) = Ok (h c)) cs -> mapM f (map g cs) = Ok (map h cs).
  Proof. induction 1 as [|c cs H _ IH]; cbn [map mapM]; [auto|]. rewrite H. cbn [bind]. rewrite IH. auto. Qed.
  Lemma zipM_map_Forall {A B C D} (f : B -> C -> res D) (g : A -> B) (k : A -> C) (h : A -> D) cs :
    Forall (fun c => f (g c) (k c) = Ok (h c)) cs -> zipM f (map g cs) (map k cs) = Ok (map h cs).
  Proof. induction 1 as [|c cs H _ IH]; cbn [map zipM]; [auto|]. rewrite H. cbn [bind]. rewrite IH. auto. Qed.

  Section One.
  Variable n : nat.
  Local Notation st := (fun a => astack (repeat a n)).
  Local Notation emb_ax t := (if_axes (up (emb V) t)).
  Lemma one_v t : upM (stack_leaf V astack of_num n) (mapd (up (emb V) t) (emb_ax t)) = Ok (arrs st t).
  Proof.
    induction t as [[a|z|o]| |k cs IH] using tree_ind'; auto. rewrite up_node. cbn [if_axes]. rewrite mapd_node, upM_node. cbn [arrs].
    replace (zipw mapd (map (up (emb V)) cs) (map if_axes (map (up (emb V)) cs))) with (map (fun t => mapd (up (emb V) t) (emb_ax t)) cs).
    - rewrite (mapM_map_Forall _ _ (arrs st)) by exact IH. auto.
    - symmetry. apply zipw_map. apply Forall_forall. auto.
  Qed.
  Lemma one_keep t : keep (up (emb V) t) (emb_ax t) = up (emb V) (rest t).
  Proof.
    induction t as [[a|z|o]| |k cs IH] using tree_ind'; auto. rewrite up_node. cbn [if_axes rest]. rewrite keep_node, up_node. f_equal.
    rewrite (map_map rest). apply zipw_map. exact IH.
  Qed.
  Lemma one_nva t : upM (unb_leaf V) (tmap no_leaf (fun s => if is_arr s then s else TNone) (up (emb V) (rest t))) = Ok (nones t).
  Proof.
    induction t as [[a|z|o]| |k cs IH] using tree_ind'; auto. cbn [rest nones]. rewrite up_node. cbn [tmap no_leaf]. rewrite upM_node, !map_map.
    rewrite (mapM_map_Forall _ _ nones) by exact IH. auto.
  Qed.
  Lemma one_nvs t : upM (unb_leaf V) (tmap no_leaf (fun s => if is_arr s then TNone else s) (up (emb V) (rest t))) = Ok (rest t).
  Proof.
    induction t as [[a|z|o]| |k cs IH] using tree_ind'; auto. cbn [rest]. rewrite up_node. cbn [tmap no_leaf]. rewrite upM_node, !map_map.
    rewrite (mapM_map_Forall _ _ rest) by exact IH. auto.
  Qed.
  Lemma one_nv t : eqx_combine no_leaf [nones t; rest t] = Ok (rest t).
  Proof.
    rewrite combine_two. induction t as [[a|z|o]| |k cs IH] using tree_ind'; auto. cbn [nones rest tmap2 is_none no_leaf orb]. rewrite Nat.eqb_refl.
    rewrite (zipM_map_Forall _ _ _ rest) by exact IH. auto.
  Qed.
  Lemma one_move t : tmap2 no_leaf (move_leaf V amove) (arrs st t) (emb_ax t) = Ok (arrs st t).
  Proof.
    induction t as [[a|z|o]| |k cs IH] using tree_ind'; auto.
    - cbn [up tmap no_leaf emb if_axes arrs tmap2 move_leaf]. rewrite move0. auto.
    - rewrite up_node. cbn [if_axes arrs tmap2 no_leaf]. rewrite Nat.eqb_refl, map_map. rewrite (zipM_map_Forall _ _ _ (arrs st)) by exact IH. auto.
  Qed.
  Lemma one_all t : eqx_combine no_leaf [arrs st t; rest t] = Ok (on_arrays st t).
  Proof.
    rewrite combine_two. induction t as [[a|z|o]| |k cs IH] using tree_ind'; auto. cbn [arrs rest tmap2 is_none no_leaf orb on_arrays]. rewrite Nat.eqb_refl.
    rewrite (zipM_map_Forall _ _ _ (on_arrays st)) by exact IH. auto.
  Qed.
  (** What [filter_vmap(lambda: act, axis_size=n)()] returns. *)
  Lemma vmap0 (act : tree (gleaf V)) fn : fn (Node tuple_kind []) = Ok (up (emb V) act) -> vd fn (Some n) [] = Ok (on_arrays st act).
  Proof.
    intros Hf. unfold vmap_default, filter_vmap. cbn [Nat.ltb Nat.leb named_in_axes bind length]. change (0 <? 0) with false. cbv iota.
    unfold resolve_axes at 1. cbn [tmap2 is_none no_leaf orb resolve_axis tmap bind map if_array].
    change (eqx_partition no_leaf TNone (Node tuple_kind []) (mask_spec (X := V) (Node tuple_kind []))) with (@Ok (tree (gleaf V) * tree (gleaf V)) (Node tuple_kind [], Node tuple_kind [])).
    cbn [bind leaves no_leaf concat map tmap2 is_none orb]. change (Nat.eqb tuple_kind tuple_kind) with true. cbv iota. cbn [zipM rmap bind].
    change (batch_size (Some n) (leaf_list (Node tuple_kind []))) with (@Ok nat n). cbn [bind].
    unfold fun_wrapper. change (eqx_combine no_leaf [Node tuple_kind []; up (emb V) (Node tuple_kind [])]) with (@Ok (tree (gleaf (bat V))) (Node tuple_kind [])).
    cbn [bind]. rewrite Hf. cbn [bind].
    assert (HR := if_axes_resolves (up (emb V) act)). pose proof (resolves_axes _ _ _ HR) as HA. apply resolve_iff in HR. rewrite HR. cbn [bind].
    rewrite (partition_axes is_none) by auto. cbn [bind].
    assert (HP : eqx_partition no_leaf TNone (keep (up (emb V) act) (emb_ax act)) (Leaf (SCall is_arr)) =
      Ok (tmap no_leaf (fun s => if is_arr s then s else TNone) (up (emb V) (rest act)), tmap no_leaf (fun s => if is_arr s then TNone else s) (up (emb V) (rest act)))).
    { rewrite one_keep. apply partition_fused. split; reflexivity. }
    rewrite HP. cbn [bind w_vmapd w_arr w_static w_axes]. rewrite one_v. cbn [bind]. rewrite one_nva. cbn [bind]. rewrite one_nvs. cbn [bind].
    unfold finish. rewrite one_nv. cbn [bind]. rewrite (def_ok V astack of_num n (up (emb V) act) (emb_ax act) (arrs st act) HA (one_v act)). cbn [bind].
    rewrite one_move. cbn [bind]. apply one_all.
  Qed.
  End One.

  Variable uniform : list V -> Prop.
  Hypothesis laws : array_laws V asize atake astack amove uniform.
  Lemma take_repeat a n i : i < n -> atake (astack (repeat a n)) 0%Z i = a.
  Proof. destruct laws as (L1 & L2 & _). intros H. apply L1; [apply L2|]. apply nth_error_repeat. exact H. Qed.

  (** ** Initially neuron [j] of layer [i] holds a copy of the activation. *)
  Theorem C92_init : forall act width depth, exists acts, copies act width depth = Ok acts /\
    treedef no_leaf acts = treedef no_leaf act /\
    forall i j, i < depth -> j < width -> on_arrays (fun a => atake (atake a 0%Z i) 0%Z j) acts = act.
  Proof.
    intros act width depth. eexists. split; [|split].
    - unfold copies. apply vmap0. rewrite (vmap0 width act) by auto. reflexivity.
    - rewrite on_arrays_comp. clear. induction act as [[a|z|o]| |k cs IH] using tree_ind'; auto. cbn [on_arrays treedef no_leaf]. f_equal. rewrite map_map. apply map_ext_Forall. exact IH.
    - intros i j Hi Hj. rewrite !on_arrays_comp. apply on_arrays_id. intros a. rewrite take_repeat by exact Hi. apply take_repeat. exact Hj.
  Qed.
  (** The final activation: one copy for every output, or the activation itself if the output is a scalar. *)
  Theorem C92_final : forall act out_size, exists acts, final_copies act out_size = Ok acts /\
    (out_size = None -> acts = act) /\
    (forall n, out_size = Some n -> forall j, j < n -> on_arrays (fun a => atake a 0%Z j) acts = act).
  Proof.
    intros act [n|].
    - eexists. split; [cbn [final_copies]; apply vmap0; reflexivity|]. split; [discriminate|]. intros m Hm j Hj. injection Hm as <-. rewrite on_arrays_comp. apply on_arrays_id. intros a. apply take_repeat. exact Hj.
    - exists act. split; [auto|]. split; [auto|]. discriminate.
  Qed.

  (** ** Calling *)
  Variable call : tree (gleaf (bat V)) -> res (tree (gleaf (bat V))).
  Variable fc : tree (gleaf V) -> res (tree (gleaf V)).
  Hypothesis Htr : traces V uniform call fc.
  Local Notation activate := (activate V asize atake astack amove of_num call).
  Local Notation run := (run V asize atake astack amove of_num call).

  (** [z] is what [activation j] makes of element [j] of the array [h], for every [j]. *)
  Definition neuronwise (activation : nat -> tree (gleaf V)) (h z : tree (gleaf V)) : Prop :=
    exists a n, h = Leaf (Arr a) /\ asize a 0%Z = Ok n /\
      forall j, j < n -> fc (Node tuple_kind [activation j; Leaf (Arr (atake a 0%Z j))]) = Ok (on_arrays (fun b => atake b 0%Z j) z).

  Lemma slice_if j t : forall t', slice V atake of_num false j (if_axes t) t t' -> t' = on_arrays (fun b => atake b 0%Z j) t.
  Proof.
    induction t as [[a|z|o]| |k cs IH] using tree_ind'; intros t' H; cbn [if_axes] in H; inversion H as [| | | |? xs ? ds HS]; subst; auto; try discriminate.
    rewrite on_arrays_node. f_equal. clear H. revert ds HS. induction IH as [|c cs Hc _ IHc]; intros ds HS; cbn [map] in HS; inversion HS; subst; cbn [map]; [auto|]. f_equal; auto.
  Qed.
  Lemma sizes_if n t : sizes_are V asize n (if_axes t) t -> lengths asize n t.
  Proof.
    induction t as [l| |k cs IH] using tree_ind'; intros H [|q p] a Ha; cbn [sub] in Ha; try discriminate.
    - injection Ha as ->. cbn in H. inversion H; auto.
    - cbn [if_axes] in H. inversion H as [| | |? ? ? HF]; subst. destruct (nth_error cs q) as [c|] eqn:E; [|discriminate]. clear H.
      revert q E HF. induction IH as [|c' cs Hc _ IHc]; intros q E HF; [destruct q; discriminate|]. cbn [map] in HF. inversion HF; subst. destruct q as [|q]; cbn in E; [injection E as ->; eapply Hc; eauto|eapply IHc; eauto].
  Qed.
  Lemma slice_out j out : forall r o, elem_tree V j out o -> slice V atake of_num true j (if_axes out) r o -> o = on_arrays (fun b => atake b 0%Z j) r.
  Proof.
    induction out as [l| |k cs IH] using tree_ind'; intros r o HE HS; inversion HE as [? y Hy| |? ? ys HF]; subst.
    - destruct l as [b|z|m]; destruct y as [a|z'|m']; cbn in Hy; try contradiction; cbn [if_axes] in HS; inversion HS; subst; auto.
    - cbn in HS. inversion HS; subst. auto.
    - cbn [if_axes] in HS. inversion HS as [| | | |? ? ds ? HS']; subst. rewrite on_arrays_node. f_equal. clear HS HE. revert ys ds HF HS'.
      induction IH as [|c cs Hc _ IHc]; intros ys ds HF HS'; inversion HF; subst; cbn [map] in HS'; inversion HS'; subst; cbn [map]; [auto|]. f_equal; auto.
  Qed.
  Theorem C92_activate : forall act x z, activate act (Leaf (Arr x)) = Ok z ->
    (forall n, asize x 0%Z = Ok n -> lengths asize n act) /\ neuronwise (fun j => on_arrays (fun a => atake a 0%Z j) act) (Leaf (Arr x)) z.
  Proof.
    intros act x z H. destruct (C31_pointwise V asize atake astack amove of_num uniform laws call fc Htr _ _ _ _ _ _ H) as (spec & iax & out & oax & H1 & H2 & H3 & H4).
    cbn [named_in_axes] in H1. injection H1 as <-. apply resolves_if_axes in H2. apply resolves_if_axes in H3. subst iax oax.
    destruct H4 as [(HN & _)|(n & HS & _ & _ & HP)].
    { exfalso. cbn [if_axes map leaves no_leaf concat app] in HN. apply app_eq_nil in HN as [_ HN]. discriminate. }
    apply sizes_if in HS. assert (Hx : asize x 0%Z = Ok n) by (apply (HS [1]); auto).
    split.
    - intros m Hm. assert (m = n) as -> by congruence. intros p a Ha. apply (HS (0 :: p)). exact Ha.
    - exists x, n. split; [auto|]. split; [auto|]. intros j Hj. destruct (HP j Hj) as (t & o & S1 & S2 & S3 & S4). apply slice_if in S1. apply slice_out in S4; [|exact S3]. subst t o. exact S2.
  Qed.

  (** The whole network. [xs k] is what layer [k] is given. *)
  Lemma layer_on i acts : layer_activation V atake i acts = on_arrays (fun a => atake a 0%Z i) acts.
  Proof.
    induction acts as [[a|z|o]| |k cs IH] using tree_ind'; auto. unfold layer_activation in *. cbn [tmap no_leaf]. rewrite on_arrays_node. f_equal. apply map_ext_Forall. exact IH.
  Qed.
  Lemma run_at : forall layers i acts final out_size x y, layers <> [] -> (forall l a b, In l layers -> l a = Ok b -> exists v, b = Leaf (Arr v)) ->
    run i layers acts final out_size fc x = Ok y ->
    exists xs : nat -> tree (gleaf V), xs 0 = x /\
      (forall k l, nth_error layers k = Some l -> exists h, l (xs k) = Ok h /\
        (k < length layers - 1 -> neuronwise (fun j => on_arrays (fun a => atake (atake a 0%Z (i + k)) 0%Z j) acts) h (xs (S k))) /\
        (k = length layers - 1 -> match out_size with
           | None => fc (Node tuple_kind [final; h]) = Ok y
           | Some _ => neuronwise (fun j => on_arrays (fun a => atake a 0%Z j) final) h y
           end)).
  Proof.
    induction layers as [|l layers IH]; intros i acts final out_size x y HN HA H; [congruence|]. destruct layers as [|l' layers].
    - cbn [run] in H. apply bind_ok in H as (h & Hh & H). exists (fun _ => x). split; [auto|]. intros [|k] l0 Hk; [|destruct k; discriminate]. cbn in Hk. injection Hk as <-. exists h. split; [auto|].
      split; [cbn; lia|]. intros _. destruct out_size; [|exact H]. destruct (HA l _ _ (or_introl eq_refl) Hh) as [v ->]. apply C92_activate. exact H.
    - change (run i (l :: l' :: layers) acts final out_size fc x) with (x0 <- l x ;; x1 <- activate (layer_activation V atake i acts) x0 ;; run (i + 1) (l' :: layers) acts final out_size fc x1) in H.
      apply bind_ok in H as (h & Hh & H). apply bind_ok in H as (x1 & Hx & H). destruct (HA l _ _ (or_introl eq_refl) Hh) as [v ->].
      destruct (IH _ _ _ _ _ _ ltac:(discriminate) (fun l0 a b Hl => HA l0 a b (or_intror Hl)) H) as (xs & E0 & Hxs). clear IH.
      exists (fun k => match k with 0 => x | S k => xs k end). split; [auto|]. intros [|k] l0 Hk.
      + cbn in Hk. injection Hk as <-. exists (Leaf (Arr v)). split; [auto|]. split; [|cbn; lia]. intros _. rewrite E0. rewrite layer_on in Hx. apply C92_activate in Hx as [_ (a & n & Ea & Hn & Hj)].
        exists a, n. split; [auto|]. split; [auto|]. intros j Hlt. specialize (Hj j Hlt). rewrite on_arrays_comp in Hj. rewrite Nat.add_0_r. exact Hj.
      + cbn [nth_error] in Hk. destruct (Hxs k l0 Hk) as (h & Hl & H1 & H2). exists h. split; [auto|]. cbn [length] in *. split.
        * intros Hlt. replace (i + S k) with (i + 1 + k) by lia. apply H1. lia.
        * intros Hk'. apply H2. lia.
  Qed.
  Theorem C92_network : forall layers acts final out_size x y, layers <> [] -> (forall l a b, In l layers -> l a = Ok b -> exists v, b = Leaf (Arr v)) ->
    run 0 layers acts final out_size fc x = Ok y ->
    exists xs : nat -> tree (gleaf V), xs 0 = x /\
      (forall k l, nth_error layers k = Some l -> exists h, l (xs k) = Ok h /\
        (k < length layers - 1 -> neuronwise (fun j => on_arrays (fun a => atake (atake a 0%Z k) 0%Z j) acts) h (xs (S k))) /\
        (k = length layers - 1 -> match out_size with
           | None => fc (Node tuple_kind [final; h]) = Ok y
           | Some _ => neuronwise (fun j => on_arrays (fun a => atake a 0%Z j) final) h y
           end)).
  Proof. intros layers acts final out_size x y. apply (run_at layers 0). Qed.
  (** A fresh network applies the same activation at every neuron. *)
  Theorem C92_fresh : forall act width depth acts, copies act width depth = Ok acts -> forall i, i < depth -> forall x z, asize x 0%Z = Ok width ->
    activate (layer_activation V atake i acts) (Leaf (Arr x)) = Ok z -> neuronwise (fun _ => act) (Leaf (Arr x)) z.
  Proof.
    intros act width depth acts Hc i Hi x z Hx Hz. destruct (C92_init act width depth) as (acts' & Hc' & _ & HI). assert (acts' = acts) as -> by congruence.
    rewrite layer_on in Hz. apply C92_activate in Hz as [_ (a & n & Ea & Hn & Hj)]. injection Ea as <-. assert (n = width) as -> by congruence.
    exists x, width. split; [auto|]. split; [auto|]. intros j Hlt. specialize (Hj j Hlt). rewrite on_arrays_comp, HI in Hj by auto. exact Hj.
  Qed.
End Act.
Print Assumptions C92_init.
Print Assumptions C92_final.
Print Assumptions C92_activate.
Print Assumptions C92_network.
Print Assumptions C92_fresh.

(** *** A learnt scale: [a(b) = a.scale * b], for the arrays of C31. *)
Definition smul (a b : arr) : arr := match a, b with Sc x, Sc y => Sc (x * y) | _, _ => Sc 0 end.
Definition bmul (a b : bat arr) : bat arr :=
  match a, b with
  | Unb a, Unb b => Unb (smul a b)
  | Unb a, Bat l => Bat (map (smul a) l)
  | Bat l, Unb b => Bat (map (fun a => smul a b) l)
  | Bat l, Bat r => Bat (map (fun ab => smul (fst ab) (snd ab)) (List.combine l r))
  end.
Definition sc_call (t : tree (gleaf (bat arr))) : res (tree (gleaf (bat arr))) :=
  match t with Node 0 [Node 7 [Leaf (Arr a); Leaf (Obj o)]; Leaf (Arr b)] => Ok (Leaf (Arr (bmul a b))) | _ => Err TypeError end.
Definition sc_fc (t : tree (gleaf arr)) : res (tree (gleaf arr)) :=
  match t with Node 0 [Node 7 [Leaf (Arr a); Leaf (Obj o)]; Leaf (Arr b)] => Ok (Leaf (Arr (smul a b))) | _ => Err TypeError end.
Lemma combine_nth_error {A B} : forall (l : list A) (r : list B) i x y, nth_error l i = Some x -> nth_error r i = Some y -> nth_error (List.combine l r) i = Some (x, y).
Proof. induction l as [|a l IH]; intros [|b r] [|i] x y H1 H2; cbn in *; try discriminate; [congruence|auto]. Qed.
Lemma bmul_elem i a b x y : elem arr i a x -> elem arr i b y -> elem arr i (bmul a b) (smul x y).
Proof.
  destruct a as [a|l], b as [b|r]; cbn; intros H1 H2; subst; auto; rewrite nth_error_map.
  - rewrite H2. auto.
  - rewrite H1. auto.
  - rewrite (combine_nth_error _ _ _ _ _ H1 H2). auto.
Qed.
Lemma bmul_len n a b l : (forall l, a = Bat l -> length l = n) -> (forall l, b = Bat l -> length l = n) -> bmul a b = Bat l -> length l = n.
Proof.
  destruct a as [a|l1], b as [b|l2]; cbn; intros H1 H2 E; try discriminate; injection E as <-; rewrite map_length; auto. rewrite combine_length, (H1 _ eq_refl), (H2 _ eq_refl). lia.
Qed.
Example C92_traces_ex : traces arr any sc_call sc_fc.
Proof.
  intros n t o HB H. unfold sc_call in H.
  destruct t as [| |[|k] [|[| |[|[|[|[|[|[|[|[|k2]]]]]]]] [|[[a| |]| |] [|[[| |ob]| |] [|]]]] [|[[b| |]| |] [|]]]]; try discriminate. injection H as <-.
  inversion HB as [| |? ? HF]; subst. inversion HF as [|? ? H1 HF1]; subst. inversion HF1 as [|? ? H2 _]; subst. inversion H1 as [| |? ? HG]; subst. inversion HG as [|? ? H3 _]; subst.
  inversion H2 as [? Lb| |]; subst. inversion H3 as [? La| |]; subst. split.
  - constructor. intros l E. injection E as E. split; [|exact I]. eapply (bmul_len n a b); [| |exact E].
    + intros l' ->. apply La. auto.
    + intros l' ->. apply Lb. auto.
  - intros i t' Hi HE. inversion HE as [| |? ? ys HEF]; subst. inversion HEF as [|? y1 ? ? E1 HEF1]; subst. inversion HEF1 as [|? y2 ? ? E2 HEF2]; subst. inversion HEF2; subst.
    inversion E2 as [? vb Eb| |]; subst. inversion E1 as [| |? ? zs HZ]; subst. inversion HZ as [|? z1 ? ? Z1 HZ1]; subst. inversion HZ1 as [|? z2 ? ? Z2 HZ2]; subst. inversion HZ2; subst.
    inversion Z1 as [? va Ea| |]; subst. inversion Z2 as [? vo Eo| |]; subst. destruct va as [va| |]; cbn in Ea; try contradiction. destruct vo; cbn in Eo; try contradiction. destruct vb as [vb| |]; cbn in Eb; try contradiction.
    exists (Leaf (Arr (smul va vb))). split; [auto|]. constructor. cbn. apply bmul_elem; auto.
Qed.
Example C92_move_ex : forall l, i_move (Rw l) 0%Z = Ok (Rw l).
Proof. auto. Qed.
Example C92_ex :
  let act := Node 7 [Leaf (Arr (Sc 2)); Leaf (Obj 5)] in
  (* two layers of three neurons *)
  copies arr i_size i_take Rw i_move Sc act 3 2 =
    Ok (Node 7 [Leaf (Arr (Rw [Rw [Sc 2; Sc 2; Sc 2]; Rw [Sc 2; Sc 2; Sc 2]])); Leaf (Obj 5)]) /\
  final_copies arr i_size i_take Rw i_move Sc act (Some 2) = Ok (Node 7 [Leaf (Arr (Rw [Sc 2; Sc 2])); Leaf (Obj 5)]) /\
  (* after training *)
  run arr i_size i_take Rw i_move Sc sc_call 0 [Ok; Ok; Ok]
    (Node 7 [Leaf (Arr (Rw [Rw [Sc 1; Sc 2; Sc 3]; Rw [Sc 10; Sc 20; Sc 30]])); Leaf (Obj 5)]) (Node 7 [Leaf (Arr (Rw [Sc 1; Sc 1; Sc 2])); Leaf (Obj 5)]) (Some 3) sc_fc
    (Leaf (Arr (Rw [Sc 1; Sc 1; Sc (-1)]))) = Ok (Leaf (Arr (Rw [Sc 10; Sc 40; Sc (-180)]))) /\
  (* a layer of the wrong width *)
  activate arr i_size i_take Rw i_move Sc sc_call (Node 7 [Leaf (Arr (Rw [Sc 1; Sc 1])); Leaf (Obj 5)]) (Leaf (Arr (Rw [Sc 1; Sc 1; Sc (-1)]))) = Err ValueError.
Proof. split; [|split; [|split]]; vm_compute; reflexivity. Qed.
