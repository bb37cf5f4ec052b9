(** C107: scanning over layers is applying them one after another. *)
From Verif Require Import Leafwise Vmap_Spec Vmap_Proofs Vmap_Proofs2 Vmap_Props Act_Props Ensemble_Props.
From Verif Require Export ScanLayers_Model.
Local Open Scope nat_scope.
Local Open Scope list_scope.

(** Layers applied one after another. *)
Inductive chained {T} (apply : T -> T -> res T) : list T -> T -> T -> Prop :=
| CH_nil x : chained apply [] x x
| CH_cons l ls x x' y : apply l x = Ok x' -> chained apply ls x' y -> chained apply (l :: ls) x y.

Section ScanLayers.
  Variable V : Type.
  Variable asize : V -> Z -> res nat.
  Variable atake : V -> Z -> nat -> V.
  Variable same_type : tree (gleaf V) -> tree (gleaf V) -> bool.
  Local Notation T := (tree (gleaf V)).
  Local Notation member i := (on_arrays (fun a => atake a 0%Z i)).
  Variable callc : T -> res T.
  Local Notation apply := (fun l x => callc (Node tuple_kind [l; x])).
  Local Notation scan := (scan_layers V asize atake same_type callc).

  Lemma member_lw i (t : T) : member i t = lw (fun a => Leaf (match a with Arr v => Arr (atake v 0%Z i) | _ => a end)) t.
  Proof.
    induction t as [[a|z|n]| |k cs IH] using tree_ind'; try reflexivity. cbn [on_arrays lw]. f_equal. apply map_ext_Forall. exact IH.
  Qed.
  Lemma element_lw i (t : T) : element V atake i t = lw (fun a => Leaf (match a with Arr v => Arr (atake v 0%Z i) | _ => a end)) t.
  Proof. unfold element. rewrite tmap_lw. apply lw_ext. intros []; reflexivity. Qed.
  Local Notation dyn t := (lw (fun a : gleaf V => if is_array_leaf V a then Leaf a else TNone) t).
  Local Notation sta t := (lw (fun a : gleaf V => if is_array_leaf V a then TNone else Leaf a) t).
  Lemma combine_element i (t : T) : eqx_combine no_leaf [element V atake i (dyn t); sta t] = Ok (member i t).
  Proof.
    rewrite element_lw, lw_lw, member_lw.
    match goal with |- eqx_combine _ [lw ?f t; lw ?g t] = _ => pose proof (combine_lw f [g] t) as E end.
    cbn [map] in E. rewrite E.
    - f_equal. apply lw_ext. intros []; reflexivity.
    - intros []; exact I.
  Qed.
  Lemma scan_unfold (layers x : T) : scan layers x =
    lax_scan V asize atake same_type (fun x d => layer <- eqx_combine no_leaf [d; sta layers] ;; callc (Node tuple_kind [layer; x])) x (dyn layers).
  Proof.
    unfold scan_layers. change (fun t : T => match t with Leaf a => is_array_leaf V a | _ => false end) with (on_leaf (is_array_leaf V)).
    rewrite partition_lw. reflexivity.
  Qed.
  Lemma scan_length_ok n (l : list T) : l <> [] -> (forall t, In t l -> exists a, t = Leaf (Arr a) /\ asize a 0%Z = Ok n) -> scan_length V asize l = Ok n.
  Proof.
    induction l as [|t l IH]; intros HN H; [contradiction|]. destruct (H t (or_introl eq_refl)) as (a & -> & Ha). cbn [scan_length]. rewrite Ha. cbn [bind].
    destruct l as [|u l]; [reflexivity|]. rewrite IH; [cbn; rewrite Nat.eqb_refl; reflexivity|discriminate|]. intros t Ht. apply H. right. exact Ht.
  Qed.
  Lemma In_sub (t : T) a : In a (labels t) -> exists p, sub t p = Some (Leaf a).
  Proof.
    induction t as [b| |k cs IH] using tree_ind'; cbn [labels]; intros H; [destruct H as [->|[]]; exists []; reflexivity|destruct H|].
    apply in_concat in H as (l & Hl & H). apply in_map_iff in Hl as (c & <- & Hc). rewrite Forall_forall in IH. destruct (IH c Hc H) as (p & Hp).
    apply In_nth_error in Hc as [i Hi]. exists (i :: p). cbn. rewrite Hi. exact Hp.
  Qed.
  Lemma sub_In (t : T) a p : sub t p = Some (Leaf a) -> In a (labels t).
  Proof.
    revert p. induction t as [b| |k cs IH] using tree_ind'; intros [|i p] H; cbn in H; try discriminate; [injection H as ->; left; reflexivity|].
    destruct (nth_error cs i) as [c|] eqn:E; [|discriminate]. cbn [labels]. apply in_concat. exists (labels c). apply nth_error_In in E.
    split; [apply in_map; exact E|]. rewrite Forall_forall in IH. eauto.
  Qed.
  Lemma dyn_length n (t : T) : lengths asize n t -> (exists p a, sub t p = Some (Leaf (Arr a))) -> scan_length V asize (leaves no_leaf (dyn t)) = Ok n.
  Proof.
    intros HL (p & a & Hp). rewrite leaves_labels. apply scan_length_ok.
    - apply sub_In in Hp. intros E. apply map_eq_nil in E. rewrite labels_lw in E. 
      assert (In (Arr a) (flat_map (fun a0 : gleaf V => labels (if is_array_leaf V a0 then Leaf a0 else TNone)) (labels t))) as HI
        by (apply in_flat_map; exists (Arr a); split; [exact Hp|left; reflexivity]).
      rewrite E in HI. destruct HI.
    - intros u Hu. apply in_map_iff in Hu as (b & <- & Hb). rewrite labels_lw in Hb. apply in_flat_map in Hb as (c & Hc & Hb).
      destruct c as [v|z|o]; cbn in Hb; try contradiction. destruct Hb as [<-|[]]. exists v. split; [reflexivity|]. apply In_sub in Hc as (q & Hq). exact (HL q v Hq).
  Qed.

  Definition arrays_only (x : T) : Prop := forall a, In a (labels x) -> exists v, a = Arr v.
  Lemma arrays_only_ok x : arrays_only x <-> forallb is_arr (leaves no_leaf x) = true.
  Proof.
    rewrite leaves_labels, forallb_forall. split.
    - intros H t Ht. apply in_map_iff in Ht as (a & <- & Ha). destruct (H a Ha) as (v & ->). reflexivity.
    - intros H a Ha. specialize (H (Leaf a) (in_map Leaf _ _ Ha)). destruct a; try discriminate. eauto.
  Qed.

  (** The arrays of the layers have [n] elements. If the scan returns, it returns the composition. *)
  Lemma scan_sound n layers x y : lengths asize n layers -> (exists p a, sub layers p = Some (Leaf (Arr a))) ->
    scan layers x = Ok y -> chained apply (map (fun i => member i layers) (seq 0 n)) x y.
  Proof.
    intros HL HN H. rewrite scan_unfold in H. unfold lax_scan in H. destruct (negb _); [discriminate|]. rewrite (dyn_length n layers HL HN) in H. cbn [bind] in H.
    revert x H. generalize (seq 0 n) as is. induction is as [|i is IH]; intros x H; cbn [scan_steps map] in *; [injection H as <-; constructor|].
    rewrite combine_element in H. cbn [bind] in H. destruct (callc _) as [x'|] eqn:E; [|discriminate]. cbn [bind] in H. destruct (same_type x x'); [|discriminate].
    econstructor; eauto.
  Qed.
  Lemma scan_complete n layers x y : lengths asize n layers -> (exists p a, sub layers p = Some (Leaf (Arr a))) -> arrays_only x ->
    (forall i x x', i < n -> callc (Node tuple_kind [member i layers; x]) = Ok x' -> same_type x x' = true) ->
    chained apply (map (fun i => member i layers) (seq 0 n)) x y -> scan layers x = Ok y.
  Proof.
    intros HL HN HX HT H. rewrite scan_unfold. unfold lax_scan. apply arrays_only_ok in HX. rewrite HX. cbn [negb]. rewrite (dyn_length n layers HL HN). cbn [bind].
    assert (HI : forall i, In i (seq 0 n) -> i < n) by (intros i Hi; apply in_seq in Hi; lia). clear HX. revert x HI H. generalize (seq 0 n) as is.
    induction is as [|i is IH]; intros x HI H; cbn [scan_steps map] in *; inversion H as [|? ? ? x' ? E HC]; subst; [reflexivity|].
    rewrite combine_element. cbn [bind]. rewrite E. cbn [bind]. rewrite (HT i x x' (HI i (or_introl eq_refl)) E). apply IH; auto. intros j Hj. apply HI. right. exact Hj.
  Qed.

  (** ** Layers created together *)
  Variable astack : list V -> V.
  Variable amove : V -> Z -> res V.
  Variable of_num : Z -> V.
  Variable uniform : list V -> Prop.
  Hypothesis laws : array_laws V asize atake astack amove uniform.
  Hypothesis sizes : size_law V asize astack amove uniform.
  Variable make : tree (gleaf (bat V)) -> res (tree (gleaf (bat V))).
  Variable makec : T -> res T.
  Hypothesis Hmake : traces V uniform make makec.
  Local Notation create := (make_ensemble V asize atake astack amove of_num make).
  (** The layers that would be made one by one, each from its key. *)
  Definition made_from (keys : V) (n : nat) (layers : list T) : Prop :=
    Forall2 (fun i l => makec (Node tuple_kind [Leaf (Arr (atake keys 0%Z i))]) = Ok l) (seq 0 n) layers.

  Lemma members_made keys layers n : create (Leaf (Arr keys)) = Ok layers -> asize keys 0%Z = Ok n ->
    (0 < n -> lengths asize n layers) /\ made_from keys n (map (fun i => member i layers) (seq 0 n)).
  Proof.
    intros H Hn. destruct (C104_members V asize atake astack amove of_num uniform laws sizes make makec Hmake keys layers H) as (n' & Hn' & HL & HM).
    assert (n' = n) by congruence. subst n'. split; [exact HL|]. unfold made_from.
    assert (HI : forall i, In i (seq 0 n) -> i < n) by (intros i Hi; apply in_seq in Hi; lia).
    induction (seq 0 n) as [|i is IH]; cbn [map]; constructor; [apply HM, HI; left; reflexivity|]. apply IH. intros j Hj. apply HI. right. exact Hj.
  Qed.

  Theorem C107_scan : forall keys layers n x y,
    create (Leaf (Arr keys)) = Ok layers -> asize keys 0%Z = Ok n -> 0 < n ->
    (exists p a, sub layers p = Some (Leaf (Arr a))) ->
    scan layers x = Ok y ->
    exists ls, made_from keys n ls /\ chained apply ls x y.
  Proof.
    intros keys layers n x y HC Hn H0 HA H. destruct (members_made keys layers n HC Hn) as [HL HM]. eexists. split; [exact HM|].
    apply scan_sound; auto.
  Qed.
  Theorem C107_works : forall keys layers n x y ls,
    create (Leaf (Arr keys)) = Ok layers -> asize keys 0%Z = Ok n -> 0 < n ->
    (exists p a, sub layers p = Some (Leaf (Arr a))) -> arrays_only x ->
    made_from keys n ls -> (forall l x x', In l ls -> apply l x = Ok x' -> same_type x x' = true) ->
    chained apply ls x y -> scan layers x = Ok y.
  Proof.
    intros keys layers n x y ls HC Hn H0 HA HX HM HT H. destruct (members_made keys layers n HC Hn) as [HL HM'].
    assert (E : ls = map (fun i => member i layers) (seq 0 n)).
    { clear -HM HM'. unfold made_from in *. revert HM'. generalize (map (fun i => member i layers) (seq 0 n)) as ls'. induction HM as [|i l is ls Hi _ IH]; intros ls' H'; inversion H'; subst; [reflexivity|].
      f_equal; [congruence|]. apply IH. assumption. }
    subst ls. apply (scan_complete n); auto. intros i z z' Hi Hz. apply (HT (member i layers) z z'); [|exact Hz]. apply in_map_iff. exists i. split; [reflexivity|]. apply in_seq. lia.
  Qed.
  (** Layers without arrays cannot be scanned over. *)
  Theorem C107_no_arrays : forall layers x, (forall p a, sub layers p <> Some (Leaf (Arr a))) -> arrays_only x -> scan layers x = Err ValueError.
  Proof.
    intros layers x H HX. rewrite scan_unfold. unfold lax_scan. apply arrays_only_ok in HX. rewrite HX. cbn [negb]. rewrite leaves_labels, labels_lw.
    assert (E : flat_map (fun a : gleaf V => labels (if is_array_leaf V a then Leaf a else TNone)) (labels layers) = []); [|rewrite E; reflexivity].
    assert (HI : forall a, In a (labels layers) -> is_array_leaf V a = false).
    { intros a Ha. apply In_sub in Ha as (p & Hp). destruct a as [v|z|o]; try reflexivity. exfalso. exact (H p v Hp). }
    induction (labels layers) as [|a l IH]; [reflexivity|]. cbn [flat_map]. rewrite (HI a (or_introl eq_refl)). cbn. apply IH. intros b Hb. apply HI. right. exact Hb.
  Qed.
End ScanLayers.
Print Assumptions C107_scan.
Print Assumptions C107_works.
Print Assumptions C107_no_arrays.

(** ** Example: layers of C104's example; the carry is a number, to which each layer appends its key as a digit. *)
Definition ex_layer (t : tree (gleaf arr)) : res (tree (gleaf arr)) :=
  match t with
  | Node _ [Node 3 [Leaf (Arr (Sc w)); Leaf (Obj 7)]; Leaf (Arr (Sc x))] => Ok (Leaf (Arr (Sc (10 * x + w))))
  | _ => Err TypeError
  end.
Example C107_ex : let keys := Rw [Sc 1; Sc 2; Sc 3] in
  (layers <- make_ensemble arr i_size i_take Rw ex_move Sc ex_make (Leaf (Arr keys)) ;;
   scan_layers arr i_size i_take (fun _ _ => true) ex_layer layers (Leaf (Arr (Sc 4)))) = Ok (Leaf (Arr (Sc 4123))) /\
  chained (fun l x => ex_layer (Node tuple_kind [l; x])) (map (fun z => Node 3 [Leaf (Arr (Sc z)); Leaf (Obj 7)]) [1; 2; 3]%Z) (Leaf (Arr (Sc 4))) (Leaf (Arr (Sc 4123))).
Proof. split; [reflexivity|]. repeat (econstructor; [reflexivity|]). constructor. Qed.
