(** C113: derivatives pass through error_if unchanged. *)
From Verif Require Import Errors_Proofs Errors_Props Filters_Proofs Leafwise Custom_Props ErrorsAd_Model.
Local Open Scope nat_scope.
Local Open Scope list_scope.

Section Props.
  Variables (V D Ob : Type).
  Variable kind_of : D -> kind.
  Variable fill : D -> V.
  Variable np_type : Ob -> option D.
  Local Notation leaf := (leaf V D Ob).
  Local Notation T := (tree leaf).
  Local Notation Dual := (leaf * option leaf)%type.
  Local Notation plain := (branched_error_if V D Ob kind_of fill np_type).
  Local Notation jvp := (jvp_branched_error_if V D Ob kind_of fill np_type).
  (** The values and the tangents of a differentiated tree. *)
  Definition values_of (z : tree Dual) : T := lw (fun p => Leaf (fst p)) z.
  Definition tangents_of (z : tree Dual) : tree (option leaf) := lw (fun p => Leaf (snd p)) z.
  (** Only floating-point arrays have tangents that are not zero. *)
  Definition proper (z : tree Dual) : Prop :=
    forall a t, In (a, Some t) (labels z) -> exists d vs, a = Arr V D Ob d vs /\ kind_of d = Inexact.

  Local Notation arr := (arr V D Ob).
  Local Notation inexact := (inexact_arr V D Ob kind_of).
  Local Notation poison_leaf := (poison_leaf V D Ob kind_of fill).
  Definition dynz (z : tree Dual) : tree Dual := lw (fun p => if arr (fst p) then Leaf p else TNone) z.

  Lemma error_cases mode (x : T) pred i msgs : Forall (fun t => leaf_is_array V D Ob t = true) (leaves no_leaf x) -> exists ev,
    (forall k, error V D Ob kind_of fill np_type mode x pred i msgs k = (ev, k x)) \/
    (forall k, error V D Ob kind_of fill np_type mode x pred i msgs k = (ev, k (poison V D Ob kind_of fill x))) \/
    exists r, (forall y, r <> Return V D Ob y) /\ forall k, error V D Ob kind_of fill np_type mode x pred i msgs k = (ev, r).
  Proof.
    intros H. unfold error. destruct (negb pred); [exists []; left; reflexivity|].
    destruct (String.eqb mode "raise"); [exists []; right; right; eexists; split; [|reflexivity]; destruct (py_index msgs i); discriminate|].
    destruct (String.eqb mode "breakpoint").
    - destruct (py_index msgs i) as [m|e]; [|exists []; right; right; eexists; split; [|reflexivity]; discriminate].
      exists [RunBreak m]. destruct (existsb _ _); [right; right; eexists; split; [|reflexivity]; discriminate|].
      rewrite nan_tree_arrays by exact H. right; left; reflexivity.
    - destruct (String.eqb mode "nan"); [rewrite nan_tree_arrays by exact H; exists []; right; left; reflexivity|].
      exists []; right; right; eexists; split; [|reflexivity]; discriminate.
  Qed.
  Lemma primals_lw z : primals V D Ob z = values_of z.
  Proof. unfold primals, values_of. rewrite tmap_lw. reflexivity. Qed.
  Lemma dyn_dynz z : primals V D Ob (dynz z) = dyn V D Ob (values_of z).
  Proof.
    rewrite primals_lw. unfold values_of, dynz, dyn. rewrite tmap_lw, !lw_lw. apply lw_ext. intros [[d vs|o] t]; reflexivity.
  Qed.
  Lemma dynz_none z : length (leaves no_leaf (dynz z)) = length (leaves no_leaf (dyn V D Ob (values_of z))).
  Proof. rewrite <- dyn_dynz, (primals_lw (dynz z)). unfold values_of. rewrite !leaves_labels, !map_length, labels_lw. induction (labels (dynz z)) as [|p l IH]; [reflexivity|]. exact (f_equal S IH). Qed.

  (** The tangents through the rule, values replaced by [f] of them. *)
  Lemma through_rule (f : leaf -> leaf) z zp zi : (forall a, inexact (f a) = inexact a /\ arr (f a) = arr a) -> proper z ->
    custom_jvp_jvp arr inexact arr (error_rule V D Ob (lw (fun p => Leaf (f (fst p))) (dynz z)))
      (Node 0 [primals V D Ob (dynz z); primals V D Ob zp; primals V D Ob zi]) (Node 0 [])
      (Node 0 [Node 0 [array_tangents V D Ob (dynz z); array_tangents V D Ob zp; array_tangents V D Ob zi]; Node 0 []])
    = Ok (lw (fun p => Leaf (f (fst p))) (dynz z), lw (fun p => Leaf (snd p)) (dynz z)).
  Proof.
    intros Hf Hz.
    assert (HA : forall x, array_tangents V D Ob x = passed arr x) by (intros x; unfold array_tangents, passed; rewrite tmap_lw; reflexivity).
    assert (HI : forall a, inexact a = true -> arr a = true) by (intros [d vs|o]; [reflexivity|discriminate]).
    pose proof (C65_rule arr inexact arr HI (error_rule V D Ob (lw (fun p => Leaf (f (fst p))) (dynz z))) (Node 0 [dynz z; zp; zi]) (Node 0 []) (fun a v H => match H with end)) as [_ H].
    specialize (H (lw (fun p => Leaf (f (fst p), snd p)) (dynz z))). rewrite !HA, !primals_lw.
    assert (E1 : vals (lw (fun p => Leaf (f (fst p), snd p)) (dynz z)) = lw (fun p => Leaf (f (fst p))) (dynz z)) by (unfold vals; rewrite lw_lw; reflexivity).
    assert (E2 : lw (fun p => Leaf (snd p)) (lw (fun p => Leaf (f (fst p), snd p)) (dynz z)) = lw (fun p => Leaf (snd p)) (dynz z)) by (rewrite lw_lw; reflexivity).
    rewrite E1, E2 in H. apply H.
    - cbn [vals seen lw map error_rule]. do 2 f_equal. unfold seen, dynz. rewrite !lw_lw. apply lw_ext_in. intros [a t] HL. cbn [fst snd]. destruct (arr a) eqn:EA; [|reflexivity].
      cbn [lw fst snd]. destruct (inexact a) eqn:EI; [reflexivity|]. destruct t as [t|]; [|reflexivity]. destruct (Hz a t HL) as (d & vs & -> & Ed). cbn in EI. rewrite Ed in EI. discriminate.
    - intros a HL. rewrite labels_lw in HL. apply in_flat_map in HL as ([b t] & HL & [HE|[]]). injection HE as <- _. rewrite (proj2 (Hf b)).
      unfold dynz in HL. rewrite labels_lw in HL. apply in_flat_map in HL as ([c u] & HL & HE). cbn [fst] in HE. destruct (arr c) eqn:EC; [destruct HE as [HE|[]]; injection HE as <- _; exact EC|destruct HE].
  Qed.
  Lemma zipped (f : leaf -> leaf) z :
    tmap2 no_leaf (pair_up V D Ob) (lw (fun p => Leaf (f (fst p))) (dynz z)) (lw (fun p => Leaf (snd p)) (dynz z)) = Ok (lw (fun p => Leaf (f (fst p), snd p)) (dynz z)).
  Proof. apply tmap2_lw. intros [a t] _. reflexivity. Qed.
  Lemma joined (f : leaf -> leaf) z :
    eqx_combine no_leaf [lw (fun p => Leaf (f (fst p), snd p)) (dynz z); lw (fun p : Dual => if arr (fst p) then TNone else Leaf p) z]
    = Ok (lw (fun p => Leaf (if arr (fst p) then f (fst p) else fst p, snd p)) z).
  Proof.
    unfold dynz. rewrite lw_lw. pose proof (combine_lw (fun p : Dual => lw (fun p => Leaf (f (fst p), snd p)) (if arr (fst p) then Leaf p else TNone)) [fun p : Dual => if arr (fst p) then TNone else Leaf p] z) as E.
    cbn [map] in E. rewrite E by (intros [a t]; cbn [fst]; destruct (arr a); exact I). f_equal. apply lw_ext. intros [a t]. cbn [fst snd]. destruct (arr a); reflexivity.
  Qed.

  (** At run time. *)
  Lemma runtime_transparent mode z zp zi pred i msgs : proper z ->
    let '(ev, r) := runtime V D Ob kind_of fill np_type mode (values_of z) pred i msgs in
    (forall y, r = Return _ _ _ y -> exists w, jvp_runtime V D Ob kind_of fill np_type mode z zp zi pred i msgs = (ev, JReturn V D Ob w) /\ values_of w = y /\ tangents_of w = tangents_of z) /\
    ((forall y, r <> Return _ _ _ y) -> jvp_runtime V D Ob kind_of fill np_type mode z zp zi pred i msgs = (ev, JStop V D Ob r)).
  Proof.
    intros Hz. unfold runtime, jvp_runtime. rewrite partition_eq, partition_lw. change (lw (fun a : dual V D Ob => if arr (fst a) then Leaf a else TNone) z) with (dynz z).
    rewrite dynz_none. destruct (length (leaves no_leaf (dyn V D Ob (values_of z))) =? 0); [split; [discriminate|reflexivity]|].
    destruct (error_cases mode (dyn V D Ob (values_of z)) pred i msgs (dyn_arrays _ _ _ _)) as (ev & [H|[H|(r & Hr & H)]]).
    - rewrite dyn_dynz, !H, combine_dyn. split; [|intros N; exfalso; eapply N; reflexivity].
      intros y E. injection E as <-. rewrite <- dyn_dynz, (primals_lw (dynz z)). unfold values_of.
      pose proof (through_rule (fun a => a) z zp zi (fun a => conj eq_refl eq_refl) Hz) as HT. rewrite (primals_lw (dynz z)) in HT. unfold values_of in HT. rewrite HT. cbn [bind]. pose proof (zipped (fun a => a) z) as EZ. cbn beta in EZ. rewrite EZ. cbn [bind]. pose proof (joined (fun a => a) z) as EJ. cbn beta in EJ. unfold dual. rewrite EJ.
      exists z. split; [|auto]. do 2 f_equal. rewrite <- (lw_id z) at 2. apply lw_ext. intros [a t]. cbn [fst snd]. destruct (arr a); reflexivity.
    - rewrite dyn_dynz, !H, combine_poison. split; [|intros N; exfalso; eapply N; reflexivity].
      intros y E. injection E as <-.
      assert (EP : poison V D Ob kind_of fill (dyn V D Ob (values_of z)) = lw (fun p => Leaf (poison_leaf (fst p))) (dynz z)).
      { rewrite <- dyn_dynz, primals_lw. unfold poison, values_of. rewrite tmap_lw, lw_lw. reflexivity. }
      rewrite EP, <- dyn_dynz.
      assert (HP : forall a, inexact (poison_leaf a) = inexact a /\ arr (poison_leaf a) = arr a).
      { intros [d vs|o]; [|split; reflexivity]. cbn [Errors_Proofs.poison_leaf]. destruct (kind_of d) eqn:Ek; cbn [inexact_arr ErrorsAd_Model.arr]; rewrite ?Ek; split; reflexivity. }
      rewrite (through_rule poison_leaf z zp zi HP Hz). cbn [bind]. rewrite (zipped poison_leaf z). cbn [bind]. unfold dual. rewrite (joined poison_leaf z).
      eexists. split; [reflexivity|]. split.
      + unfold values_of, poison. rewrite tmap_lw, !lw_lw. apply lw_ext. intros [[d vs|o] t]; reflexivity.
      + unfold tangents_of. rewrite lw_lw. reflexivity.
    - rewrite dyn_dynz, !H. split; [intros y ->; exfalso; eapply Hr; reflexivity|]. intros _. destruct r; try reflexivity. exfalso. eapply Hr. reflexivity.
  Qed.

  (** C113. Whatever the mode, the predicate, the index and their tangents: differentiating reports the same events and the same
      errors, and returns the same values, with the tangents of [x]. The one exception is [nan] mode resolved while tracing. *)
  Theorem C113_transparent : forall env mode z zp zi p i msgs, proper z ->
    ~ (p = PyBool true /\ (exists n, i = PyInt n) /\ in_force env mode "nan"%string) ->
    let '(ev, r) := plain env mode (values_of z) p i msgs in
    (forall y, r = Return _ _ _ y -> exists w, jvp env mode z zp zi p i msgs = (ev, JReturn V D Ob w) /\ values_of w = y /\ tangents_of w = tangents_of z) /\
    ((forall y, r <> Return _ _ _ y) -> jvp env mode z zp zi p i msgs = (ev, JStop V D Ob r)).
  Proof.
    intros env mode z zp zi p i msgs Hz HN. unfold branched_error_if, impl, jvp_branched_error_if, jvp_impl.
    set (mode' := if String.eqb mode "default" then env else mode) in *.
    destruct (negb (String.eqb mode "default") && negb (valid_mode mode)) eqn:EV; [split; [discriminate|reflexivity]|].
    destruct (pred_value p) as [pc pred] eqn:EP. destruct (index_value i) as [[ic idx]|e] eqn:EI; [|split; [discriminate|reflexivity]].
    destruct (pc && negb pred) eqn:EQ; [split; [intros y E; injection E as <-; exists z; auto|intros N; exfalso; eapply N; reflexivity]|].
    destruct (pc && ic) eqn:EC; [|apply runtime_transparent; exact Hz].
    destruct (String.eqb mode' "raise"); [split; [destruct (py_index msgs idx); discriminate|reflexivity]|].
    destruct (String.eqb mode' "breakpoint") eqn:EB.
    - destruct (py_index msgs idx) as [m|e]; [|split; [discriminate|reflexivity]].
      pose proof (runtime_transparent mode' z zp zi pred idx msgs Hz) as H. destruct (runtime V D Ob kind_of fill np_type mode' (values_of z) pred idx msgs) as [ev r]. destruct H as [H1 H2]. split.
      + intros y E. destruct (H1 y E) as (w & -> & W). exists w. split; [reflexivity|exact W].
      + intros N. rewrite (H2 N). reflexivity.
    - destruct (String.eqb mode' "nan") eqn:En; [|split; [discriminate|reflexivity]]. exfalso. apply HN. apply String.eqb_eq in En.
      apply andb_prop in EC as [-> ->]. destruct p as [b|bs]; [|discriminate]. destruct i as [n|ns]; [|cbn in EI; destruct (unvmap_max ns); discriminate].
      cbn [pred_value] in EP. injection EP as <-. destruct b; [|discriminate EQ].
      split; [reflexivity|]. split; [eauto|]. unfold in_force. split; [|auto]. unfold mode' in En. destruct (String.eqb_spec mode "default"); auto.
  Qed.

  (** In [nan] mode with a Python True and a Python index: the values are replaced while tracing, and the tangents are zero. *)
  Theorem C113_trace_nan : forall env mode z zp zi n msgs, in_force env mode "nan"%string ->
    let '(ev, r) := plain env mode (values_of z) (PyBool true) (PyInt n) msgs in
    (forall y, r = Return _ _ _ y -> exists w, jvp env mode z zp zi (PyBool true) (PyInt n) msgs = (ev, JReturn V D Ob w) /\ values_of w = y /\ forall a t, In (a, t) (labels w) -> t = None) /\
    ((forall y, r <> Return _ _ _ y) -> jvp env mode z zp zi (PyBool true) (PyInt n) msgs = (ev, JStop V D Ob r)).
  Proof.
    intros env mode z zp zi n msgs HF. destruct (force_eq _ _ _ HF) as [E1 E2]. unfold branched_error_if, impl, jvp_branched_error_if, jvp_impl. rewrite E1, E2. cbn [pred_value index_value andb negb].
    assert (Q : (String.eqb "nan" "raise" = false /\ String.eqb "nan" "breakpoint" = false /\ String.eqb "nan" "nan" = true)%string) by auto. destruct Q as (-> & -> & ->).
    rewrite primals_lw. destruct (nan_tree V D Ob kind_of fill np_type (values_of z)) as [y|e]; [|split; [discriminate|reflexivity]]. split; [|intros N; exfalso; eapply N; reflexivity].
    intros y' E. injection E as <-. eexists. split; [reflexivity|]. rewrite tmap_lw. split.
    - unfold values_of. rewrite lw_lw. apply lw_id.
    - intros a t H. rewrite labels_lw in H. apply in_flat_map in H as (b & _ & [H|[]]). congruence.
  Qed.
  (** [error_if] likewise: its derivative is that of the identity, with the errors of [error_if]. *)
  Theorem C113_error_if : forall env mode z zp p msg, proper z -> ~ (p = PyBool true /\ in_force env mode "nan"%string) ->
    let '(ev, r) := error_if V D Ob kind_of fill np_type env mode (values_of z) p msg in
    (forall y, r = Return _ _ _ y -> exists w, jvp_error_if V D Ob kind_of fill np_type env mode z zp p msg = (ev, JReturn V D Ob w) /\ values_of w = y /\ tangents_of w = tangents_of z) /\
    ((forall y, r <> Return _ _ _ y) -> jvp_error_if V D Ob kind_of fill np_type env mode z zp p msg = (ev, JStop V D Ob r)).
  Proof.
    intros env mode z zp p msg Hz HN. apply (C113_transparent env mode z zp (Node 0 []) p (PyInt 0) [msg] Hz). intros (H1 & _ & H2). apply HN. split; assumption.
  Qed.
End Props.
Print Assumptions C113_transparent.
Print Assumptions C113_trace_nan.
Print Assumptions C113_error_if.

(** *** Witnesses (the model of C33's: -1 stands for NaN) *)
Definition jbei := jvp_branched_error_if Z bool bool kd (fun d => if d then (-1)%Z else 2147483647%Z) (fun o => if o then Some true else None).
Definition fld vs t : tree (leaf Z bool bool * option (leaf Z bool bool)) := Leaf (Arr Z bool bool true vs, option_map (Arr Z bool bool true) t).
Definition int_ vs : tree (leaf Z bool bool * option (leaf Z bool bool)) := Leaf (Arr Z bool bool false vs, None).
Definition obj_ : tree (leaf Z bool bool * option (leaf Z bool bool)) := Leaf (Obj Z bool bool true, None).
Definition ex_z := Node 0 [fld [3; 4]%Z (Some [1; 0]%Z); int_ [5]%Z; fld [6]%Z None; obj_].
Example C113_ex : proper Z bool bool kd ex_z /\
  jbei "raise" "default" ex_z (fld [0]%Z (Some [7]%Z)) (Node 0 []) (BoolArr [false]) (PyInt 0) ["a"]%string = ([], JReturn _ _ _ ex_z) /\
  jbei "raise" "default" ex_z (fld [0]%Z (Some [7]%Z)) (Node 0 []) (BoolArr [true]) (PyInt 0) ["a"]%string = ([], JStop _ _ _ (RunError _ _ _ "a"%string)).
Proof.
  split; [|split; reflexivity]. intros a t H. cbn in H. destruct H as [H|[H|[H|[H|[]]]]]; injection H; intros; subst; try discriminate. eexists _, _. split; reflexivity.
Qed.
(** [nan] mode: at run time the values are NaN but the tangents are those of [x]; resolved while tracing, they are zero. *)
Theorem C113_nan_modes_differ : exists z w1 w2,
  jbei "nan" "default" z (Node 0 []) (Node 0 []) (BoolArr [true]) (PyInt 0) ["a"]%string = ([], JReturn _ _ _ w1) /\
  jbei "nan" "default" z (Node 0 []) (Node 0 []) (PyBool true) (PyInt 0) ["a"]%string = ([], JReturn _ _ _ w2) /\
  values_of Z bool bool w1 = values_of Z bool bool w2 /\ values_of Z bool bool w1 = Node 0 [fl [(-1)%Z; (-1)%Z]] /\
  tangents_of Z bool bool w1 = Node 0 [Leaf (Some (Arr Z bool bool true [1; 0]%Z))] /\ tangents_of Z bool bool w2 = Node 0 [Leaf None].
Proof. exists (Node 0 [fld [3; 4]%Z (Some [1; 0]%Z)]). eexists _, _. split; [reflexivity|]. split; [reflexivity|]. repeat split; reflexivity. Qed.
Print Assumptions C113_nan_modes_differ.
