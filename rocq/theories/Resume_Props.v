(** C105: resuming from a file with a skeleton made by [filter_eval_shape], or with the hyperparameters in the file. *)
From Verif Require Import Leafwise Tree_Rel Closure_Props Serial_Spec Serial_Props SerialFile_Props.
From Verif Require Export Resume_Model.
Local Open Scope list_scope.

(** ** Vocabulary *)
(** A leaf of a model and the corresponding leaf of the one the constructor makes: another value of the same kind that
    can be stored; anything without data is the same. *)
Inductive kept (x64 : bool) : leaf -> leaf -> Prop :=
| K_jax a b : sh a = sh b -> dt a = dt b -> jax_storable x64 (dt a) -> kept x64 (JArr a) (JArr b)
| K_np a b : sh a = sh b -> dt a = dt b -> np_storable (dt a) -> kept x64 (NArr a) (NArr b)
| K_gen d v w : np_storable d \/ d = DBF16 -> kept x64 (NGen d v) (NGen d w)
| K_py k v w : int_fits k v -> kept x64 (Py k v) (Py k w)
| K_other n : kept x64 (Other n) (Other n).

Definition skel_leaf (a : leaf) : leaf := if is_jax a then shape_struct (struct_of a) else a.
Lemma side_skel x64 m made : trel (kept x64) m made ->
  side_by_side no_leaf (expected x64) m (lw (fun a => Leaf (skel_leaf a)) made) m.
Proof.
  revert made. induction m as [a| |k cs IH] using tree_ind'; intros made H; inversion H as [? b HK| |? ? ds HF]; subst; cbn [lw].
  - destruct HK; (apply SS_leaf; [reflexivity..|]); unfold skel_leaf; cbn.
    + replace (sh b) with (sh a) by auto. replace (dt b) with (dt a) by auto. apply X_sds; auto.
    + apply X_np; auto.
    + apply X_gen; auto.
    + apply X_py; auto.
    + apply X_other; auto.
  - apply SS_none; auto.
  - apply SS_node; auto. clear H. revert ds HF. induction IH as [|c cs Hc _ IHc]; intros ds HF; inversion HF; subst; cbn [map]; [constructor|].
    constructor; auto.
Qed.
Lemma side_same x64 m made : trel (kept x64) m made -> side_by_side no_leaf (expected x64) m made m.
Proof.
  revert made. induction m as [a| |k cs IH] using tree_ind'; intros made H; inversion H as [? b HK| |? ? ds HF]; subst.
  - destruct HK; (apply SS_leaf; [reflexivity..|]).
    + apply X_jax; auto.
    + apply X_np; auto.
    + apply X_gen; auto.
    + apply X_py; auto.
    + apply X_other; auto.
  - apply SS_none; auto.
  - apply SS_node; auto. clear H. revert ds HF. induction IH as [|c cs Hc _ IHc]; intros ds HF; inversion HF; subst; [constructor|].
    constructor; auto.
Qed.
Lemma agrees_skel m made : agrees no_leaf m (lw (fun a => Leaf (skel_leaf a)) made) -> agrees no_leaf m made.
Proof.
  revert m. induction made as [b| |k cs IH] using tree_ind'; intros m H; cbn [lw] in H.
  - inversion H as [? ? H1 H2 H3| |]; subst. apply A_leaf; auto.
    + destruct b; exact H2.
    + intros Hn. rewrite (H3 Hn). destruct b; reflexivity.
  - exact H.
  - inversion H as [? ? H1 H2 H3| |? os ls HF]; subst; [discriminate H2 + (unfold same_type in H2; destruct m as [[]| |]; discriminate)|].
    apply A_node. clear H. revert os HF. induction IH as [|c cs Hc _ IHc]; intros os HF; cbn [map] in HF; inversion HF; subst; constructor; auto.
Qed.

Section Resume.
  Variable x64 : bool.
  Variable cast : dty -> dty -> Z -> Z.
  Variable ctor : target -> dty -> Z -> res Z.
  Hypothesis F : faithful cast ctor.

  Section Skeleton.
    Variable trace : @flat_fn leaf -> list (list nat * dty) -> res (@jaxpr leaf * list (list nat * dty) * @pydata leaf).
    Hypothesis TR : tracing is_jax struct_of trace.
    Variable call : obj -> obj -> obj -> res obj.
    (** Pairs of an argument of [filter_eval_shape] (a shape, or an array) and an argument of the constructor. *)
    Variables zf za zk : tree (leaf * leaf).
    Variable leq : leaf -> leaf -> bool.
    Local Notation fit := (all_fit is_jax is_shape struct_of leq same).
    Hypothesis fits_f : fit zf.
    Hypothesis fits_a : fit za.
    Hypothesis fits_k : fit zk.
    Local Notation mix := (mixed is_jax is_shape).
    Local Notation run := (run x64 cast ctor trace no_leaf call).

    Lemma skeleton_of skel : skeleton trace call (example zf) (example za) (example zk) = Ok skel ->
      exists made, call (mix zf) (mix za) (mix zk) = Ok made /\ skel = lw (fun a => Leaf (skel_leaf a)) made.
    Proof.
      intros H. destruct (C68_eval_shape is_jax is_shape struct_of shape_struct leq trace TR) with (4 := fits_a) (3 := fits_f) (5 := fits_k) (2 := H)
        as (made & H1 & _ & H2).
      - intros []; simpl; congruence.
      - exists made. auto.
    Qed.

    (** If the skeleton can be made, so can the model. Any model like the one made, whatever its values, can be saved,
        and resuming from that file, under the same or an equivalent name, gives that model. *)
    Theorem C105_resume : forall skel, skeleton trace call (example zf) (example za) (example zk) = Ok skel ->
      exists made, (forall d, run (mix zf) (mix za) (mix zk) d None = POk made) /\
      forall m, trel (kept x64) m made ->
        (forall d p q, with_suffix p = Ok q -> dirs d q = false -> dirs d (parent q) = true ->
           exists d', save no_leaf d p (Leaf default_ser) m = (d', POk tt)) /\
        (forall d d' p p', save no_leaf d p (Leaf default_ser) m = (d', POk tt) -> with_suffix p' = with_suffix p ->
           run (example zf) (example za) (example zk) d' (Some p') = POk m).
    Proof.
      intros skel H. destruct (skeleton_of skel H) as (made & H1 & ->). exists made. split; [intros d; cbn; rewrite H1; reflexivity|].
      intros m HM. pose proof (side_skel x64 m made HM) as HS. split.
      - intros d p q Hp D1 D2. destruct (C20_round_trip x64 cast ctor no_leaf _ _ _ F HS) as (f & Hf & _).
        destruct (C101_save no_leaf _ m f d p q Hf Hp D1 D2) as (d' & Hd & _). eauto.
      - intros d d' p p' HSV EP. destruct (C20_round_trip x64 cast ctor no_leaf _ _ _ F HS) as (f & Hf & HL). cbn [Resume_Model.run]. rewrite H.
        unfold save in HSV. unfold load. rewrite EP. destruct (with_suffix p) as [q|e]; [|discriminate]. unfold open_w in HSV. unfold open_r.
        destruct (dirs d q) eqn:D1; [discriminate|]. destruct (dirs d (parent q)); [|discriminate]. cbn [negb] in HSV.
        rewrite (write_ok no_leaf _ m f [] Hf) in HSV. injection HSV as <-. cbn [dirs files store app]. rewrite D1.
        destruct (path_eq_dec q q); [|contradiction]. rewrite <- (app_nil_r f), HL. auto.
    Qed.
    (** Whatever file is resumed from: what is loaded has the structure of the model that would be made, with leaves of
        the same types, and arrays of the same shapes. *)
    Theorem C105_like_made : forall d p m, run (example zf) (example za) (example zk) d (Some p) = POk m ->
      exists made, call (mix zf) (mix za) (mix zk) = Ok made /\ agrees no_leaf m made.
    Proof.
      intros d p m H. cbn [Resume_Model.run] in H. destruct (skeleton trace call _ _ _) as [skel|e] eqn:E; [|discriminate].
      destruct (skeleton_of skel E) as (made & H1 & ->). exists made. split; [exact H1|]. apply agrees_skel.
      unfold load in H. destruct (with_suffix p); [|discriminate]. destruct (open_r d _); [|discriminate].
      destruct (deserialise _ _ _ _) as [[o f']| |] eqn:ED; try discriminate. injection H as <-. eapply C21_checked; eauto.
    Qed.
  End Skeleton.

  (** ** Hyperparameters on the first line *)
  Section Both.
    Variable H : Type.
    Variable dumps : H -> string.
    Variable loads : string -> res H.

    Lemma readline_at l f : ~ In newline l -> readline (map inl (l ++ [newline]) ++ map inr f) = (l ++ [newline], map inr f).
    Proof.
      induction l as [|c l IH]; intros HN; cbn [app map readline]; [rewrite Ascii.eqb_refl; reflexivity|].
      destruct (Ascii.eqb_spec c newline) as [->|_]; [exfalso; apply HN; left; reflexivity|].
      rewrite IH by (intros HI; apply HN; right; exact HI). reflexivity.
    Qed.
    Lemma to_file_inr f : to_file (map inr f) = f.
    Proof. unfold to_file. rewrite map_map, map_id. reflexivity. Qed.
    (** If the hyperparameters come back from a line, and are written on one line, the model comes back. *)
    Theorem C105_hyperparameters : forall (make : H -> res obj) h made m,
      make h = Ok made -> trel (kept x64) m made ->
      loads (dumps h ++ String newline EmptyString)%string = Ok h -> ~ In newline (list_ascii_of_string (dumps h)) ->
      exists f, save_both no_leaf H dumps h m = POk f /\ load_both x64 cast ctor no_leaf H loads make f = POk m.
    Proof.
      intros make h made m Hm HK HL HN. destruct (C20_round_trip x64 cast ctor no_leaf _ _ _ F (side_same x64 m made HK)) as (f & Hf & HD).
      unfold save_both. rewrite Hf. eexists. split; [reflexivity|]. unfold load_both. rewrite readline_at by exact HN.
      assert (E : string_of_list_ascii (list_ascii_of_string (dumps h) ++ [newline]) = (dumps h ++ String newline EmptyString)%string).
      { generalize (dumps h). clear. induction s as [|c s IH]; [reflexivity|]. cbn [list_ascii_of_string app string_of_list_ascii]. rewrite IH. reflexivity. }
      rewrite E, HL, Hm, to_file_inr. rewrite <- (app_nil_r f), HD. reflexivity.
    Qed.
  End Both.
End Resume.
Print Assumptions C105_resume.
Print Assumptions C105_like_made.
Print Assumptions C105_hyperparameters.

(** What [fits] means here: a [ShapeDtypeStruct] or an array among the arguments of [filter_eval_shape] stands for any array of its
    shape and dtype; anything else stands for itself. *)
Definition has_shape (a : leaf) (s : list nat) (d : dty) : Prop := a = SDS s d \/ exists y, a = JArr y /\ sh y = s /\ dt y = d.
Theorem C105_fits : forall leq a b, fits is_jax is_shape struct_of leq same (a, b) <->
  (forall s d, has_shape a s d -> exists x, b = JArr x /\ sh x = s /\ dt x = d) /\
  ((forall s d, ~ has_shape a s d) -> (forall x, b <> JArr x) /\ leq b a = true).
Proof.
  intros leq a b. unfold fits, same. cbn [fst snd].
  assert (HD : (exists s d, has_shape a s d /\ struct_of a = (s, d) /\ is_struct is_jax is_shape a = true /\ forall s' d', has_shape a s' d' -> s' = s /\ d' = d) \/
    (is_struct is_jax is_shape a = false /\ forall s d, ~ has_shape a s d)).
  { unfold has_shape. destruct a; try (right; split; [reflexivity|]; intros ? ? [E|(? & E & _)]; discriminate); left.
    - do 2 eexists. split; [right; eauto|]. split; [reflexivity|]. split; [reflexivity|]. intros s' d' [E|(y & E & <- & <-)]; [discriminate|]. injection E as ->. auto.
    - do 2 eexists. split; [left; reflexivity|]. split; [reflexivity|]. split; [reflexivity|]. intros s' d' [E|(y & E & _)]; [|discriminate]. injection E as -> ->. auto. }
  destruct HD as [(s & d & HS & E & -> & HU)|[-> HN]].
  - rewrite E. split.
    + intros [H1 H2]. split; [|intros N; exfalso; eapply N; exact HS]. intros s' d' H. destruct (HU _ _ H) as [-> ->].
      destruct b; try discriminate. injection H2 as -> ->. eauto.
    + intros [H1 _]. destruct (H1 s d HS) as (x & -> & <- & <-). split; reflexivity.
  - split.
    + intros [H1 H2]. split; [intros s d H; destruct (HN _ _ H)|]. intros _. split; [intros x ->; discriminate|exact H2].
    + intros [_ H2]. destruct (H2 HN) as [N E]. split; [destruct b; try reflexivity; exfalso; eapply N; reflexivity|exact E].
Qed.
Print Assumptions C105_fits.

(** ** Examples *)
(** A tracer for functions without arguments that are arrays. *)
Definition ex_trace (G : @flat_fn leaf) (ss : list (list nat * dty)) : res (@jaxpr leaf * list (list nat * dty) * @pydata leaf) :=
  match ss with
  | [] => '(outs, data) <- G [] ;; Ok (fun _ => Ok outs, map struct_of outs, data)
  | _ => Err TypeError
  end.
Example ex_tracing : tracing is_jax struct_of ex_trace.
Proof.
  intros G ss jx os data H ws Ha Hs. destruct ss; [|discriminate]. destruct ws; [|discriminate]. cbn in H. destruct (G []) as [[outs dd]|]; [|discriminate].
  cbn in H. injection H as <- <- <-. eauto.
Qed.
(** [make(width)]: zeros of that width, a Python float, and a function. *)
Definition ex_call (fn args kwargs : obj) : res obj :=
  match args with
  | Node _ [Leaf (Py KInt w)] => Ok (Node 5%nat [Leaf (JArr {| sh := [Z.to_nat w]; dt := DF32; dat := repeat 0%Z (Z.to_nat w) |}); Leaf (Py KFloat 1); Leaf (Other 9)])
  | _ => Err TypeError
  end.
Definition ex_args : tree (leaf * leaf) := Node 0%nat [Leaf (Py KInt 2, Py KInt 2)].
Definition ex_fn : tree (leaf * leaf) := Leaf (Other 1, Other 1).
Definition ex_m : obj := Node 5%nat [Leaf (JArr {| sh := [2%nat]; dt := DF32; dat := [7; 8]%Z |}); Leaf (Py KFloat 3); Leaf (Other 9)].
Definition ex_disk : disk := {| dirs := fun p => match parts p with [] => true | _ => false end; files := fun _ => None |}.
Example C105_ex :
  skeleton ex_trace ex_call (example ex_fn) (example ex_args) (example (Node 0%nat [])) =
    Ok (Node 5%nat [Leaf (SDS [2%nat] DF32); Leaf (Py KFloat 1); Leaf (Other 9)]) /\
  (forall made, ex_call (example ex_fn) (example ex_args) (example (Node 0%nat [])) = Ok made -> trel (kept false) ex_m made) /\
  exists d', save no_leaf ex_disk (parse "m") (Leaf default_ser) ex_m = (d', POk tt) /\
    run false cast0 ctor0 ex_trace no_leaf ex_call (example ex_fn) (example ex_args) (example (Node 0%nat [])) d' (Some (parse "m.eqx")) = POk ex_m.
Proof.
  split; [reflexivity|]. split.
  - intros made H. injection H as <-. constructor. repeat constructor; unfold np_storable; cbn; intuition congruence.
  - eexists. split; reflexivity.
Qed.
(** Hyperparameters over several lines, as with [indent], are not read back. *)
Definition ex_loads (s : string) : res nat := if String.eqb s "7
" then Ok 7%nat else Err ValueError.
Example C105_hyper_ex : let make := fun _ : nat => ex_call TNone (example ex_args) TNone in
  (exists f, save_both no_leaf nat (fun _ => "7"%string) 7%nat ex_m = POk f /\ load_both false cast0 ctor0 no_leaf nat ex_loads make f = POk ex_m) /\
  (exists f, save_both no_leaf nat (fun _ => "
7"%string) 7%nat ex_m = POk f /\ load_both false cast0 ctor0 no_leaf nat ex_loads make f = PRaise ValueError).
Proof. split; eexists; (split; [reflexivity|]); reflexivity. Qed.
