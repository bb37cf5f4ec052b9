(** C11, C12: flattening and constructing Modules; C57: [module_update_wrapper]. *)
From Verif Require Import Module_Proofs2.

(** Vocabulary. [lookup n] is what the class (with its bases) defines under the name [n].
    [class_ok]: field names and wrapper names ([__doc__] etc.) are distinct and no wrapper name is
    defined as a property. [inst_ok]: no entry of [__dict__] is hidden behind a property. *)

(** C11. Every instance, partially initialised or not, can be flattened. The children are the
    values of the non-static fields that are present, in the order of declaration; the static
    fields that are present go to the auxiliary data. *)
Theorem C11_flatten : forall V (fields : list (field V)) lookup worder d, class_ok fields lookup worder ->
  exists vs a, flatten fields lookup worder d = Ok (vs, a) /\
    dyn_names a = List.filter (fun n => match aget d n with Some _ => true | None => false end)
                    (map f_name (List.filter (fun f => negb (f_static f)) fields)) /\
    Forall2 (fun n v => aget d n = Some v) (dyn_names a) vs /\
    static_names a = List.filter (fun n => match aget d n with Some _ => true | None => false end)
                    (map f_name (List.filter (fun f => f_static f) fields)) /\
    Forall2 (fun n v => aget d n = Some v) (static_names a) (static_values a).
Proof.
  intros V fields lookup worder d H. destruct (flatten_ok fields lookup worder d H) as (vs & a & Hf).
  exists vs, a. split; auto. eapply dyn_names_spec; eauto.
Qed.
Print Assumptions C11_flatten.

(** Unflattening with any values of the right number: exactly the dynamic fields change, to the
    given values; missing fields stay missing; wrapper attributes read the same; anything else
    that was in [__dict__] is gone; and flattening again returns these values with the same
    auxiliary data. *)
Theorem C11_unflatten : forall V (fields : list (field V)) lookup worder d vs a vs',
  class_ok fields lookup worder -> inst_ok lookup d -> flatten fields lookup worder d = Ok (vs, a) ->
  length vs' = length vs ->
  exists d', unflatten lookup a vs' = Ok d' /\ flatten fields lookup worder d' = Ok (vs', a) /\
    (forall i n v, nth_error (dyn_names a) i = Some n -> nth_error vs' i = Some v -> aget d' n = Some v) /\
    (forall n, In n (map f_name fields) -> ~ In n (dyn_names a) -> aget d' n = aget d n) /\
    (forall w, In w worder -> getattr lookup d' w = getattr lookup d w) /\
    (forall n, ~ In n (map f_name fields) -> ~ In n worder -> aget d' n = None).
Proof.
  intros V fields lookup worder d vs a vs' HC HI HF HL.
  destruct (unflatten_spec fields lookup worder d vs a vs' HC HI HF HL) as (d' & A & B & _ & C & D & E & F & _).
  exists d'. do 5 (split; [assumption|]). assumption.
Qed.
Print Assumptions C11_unflatten.

(** The round trip: all fields agree. *)
Theorem C11_roundtrip : forall V (fields : list (field V)) lookup worder d vs a,
  class_ok fields lookup worder -> inst_ok lookup d -> flatten fields lookup worder d = Ok (vs, a) ->
  exists d', unflatten lookup a vs = Ok d' /\
    (forall n, In n (map f_name fields) -> aget d' n = aget d n) /\
    (forall w, In w worder -> getattr lookup d' w = getattr lookup d w).
Proof.
  intros V fields lookup worder d vs a HC HI HF.
  destruct (unflatten_spec fields lookup worder d vs a vs HC HI HF eq_refl) as (d' & A & B & _ & C & D & E & F & _).
  exists d'. split; auto. split; auto. intros n Hn.
  destruct (in_dec Nat.eq_dec n (dyn_names a)) as [Hd|Hd]; [|auto].
  pose proof (dyn_names_spec _ _ _ _ _ _ HF) as (_ & D2 & _ & _).
  apply In_nth_error in Hd as [i Hi].
  assert (exists v, nth_error vs i = Some v /\ aget d n = Some v) as (v & Hv & Hg).
  { clear - D2 Hi. revert i Hi. induction D2 as [|x y l r Hxy HF IH]; intros [|i] Hi; cbn in *; try discriminate; [inv Hi; eauto|eauto]. }
  rewrite Hg. eapply C; eauto.
Qed.
Print Assumptions C11_roundtrip.

(** Flattening with keys returns the same children, each under its field name. *)
Theorem C11_keys : forall V (fields : list (field V)) lookup worder d vs a,
  flatten fields lookup worder d = Ok (vs, a) <->
  exists kvs, flatten_with_keys fields lookup worder d = Ok (kvs, a) /\ map snd kvs = vs /\ map fst kvs = dyn_names a.
Proof.
  intros V fields lookup worder d vs a. unfold flatten, flatten_with_keys. destruct (split_fields fields d) as [dyn st].
  destruct (wrappers lookup worder d); cbn [bind].
  - split.
    + intros H; inv H. exists dyn. auto.
    + intros (kvs & H & <- & H2). inv H. auto.
  - split; [discriminate|]. intros (kvs & H & _). discriminate.
Qed.
Print Assumptions C11_keys.
(** Reading a wrapper attribute may raise: an [AttributeError] means it is left out, anything else is raised. *)
Theorem C11_wrapper_raises : forall V (fields : list (field V)) lookup worder d ws1 w ws2 e,
  worder = ws1 ++ w :: ws2 -> getattr lookup d w = Err e -> e <> AttributeError ->
  (forall w' e', In w' ws1 -> getattr lookup d w' = Err e' -> e' = AttributeError) ->
  flatten fields lookup worder d = Err e /\ flatten_with_keys fields lookup worder d = Err e.
Proof.
  intros V fields lookup worder d ws1 w ws2 e -> Hw He Hb.
  assert (H : wrappers lookup (ws1 ++ w :: ws2) d = Err e).
  { induction ws1 as [|x ws1 IH]; cbn [app wrappers].
    - rewrite Hw. destruct e; congruence.
    - assert (E : wrappers lookup (ws1 ++ w :: ws2) d = Err e) by (apply IH; intros w' e' Hi; apply Hb; right; exact Hi).
      rewrite E. destruct (getattr lookup d x) as [v|e'] eqn:Ex; [reflexivity|].
      rewrite (Hb x e' (or_introl eq_refl) Ex). reflexivity. }
  unfold flatten, flatten_with_keys. destruct (split_fields fields d) as [dyn st]. rewrite H. split; reflexivity.
Qed.
Print Assumptions C11_wrapper_raises.

(** The condition on names is needed: a dataclass field called like a wrapper attribute (say
    [__doc__], name 2) is flattened twice, and the stale copy in the auxiliary data wins. *)
Definition fld n st : field nat := {| f_name := n; f_static := st; f_conv := None |}.
Definition plain : name -> cattr nat := fun _ => CNone.
Theorem C11_wrapper_field_refuted : exists (fields : list (field nat)) worder d vs a vs' d',
  NoDup (map f_name fields) /\ flatten fields plain worder d = Ok (vs, a) /\ length vs' = length vs /\
  unflatten plain a vs' = Ok d' /\ dyn_names a = [2] /\ vs' = [8] /\ aget d' 2 = Some 7.
Proof.
  exists [fld 2 false], [0; 1; 2; 3; 4], [(2, 7)], [7],
    {| dyn_names := [2]; static_names := []; static_values := []; wrap_names := [2]; wrap_values := [7] |}, [8], [(2, 7)].
  split; [cbn; constructor; [intros []|constructor]|]. repeat split; reflexivity.
Qed.
Print Assumptions C11_wrapper_field_refuted.

(** A class with fields 10 (dynamic), 11 (static), 12 (dynamic, missing) and a [__doc__]. *)
Definition ex_fields := [fld 10 false; fld 11 true; fld 12 false].
Definition ex_lookup : name -> cattr nat := fun n => if Nat.eqb n 3 then CVal (fun _ => 77) else CNone.
Example C11_ex_ok : class_ok ex_fields ex_lookup [0; 1; 2; 3; 4].
Proof.
  split; [|split; [|split]].
  - cbn. repeat constructor; cbn; intuition discriminate.
  - repeat constructor; cbn; intuition discriminate.
  - cbn. intros w H1 H2. intuition subst; discriminate.
  - intros w _ [g H]. unfold ex_lookup in H. destruct (Nat.eqb w 3); discriminate.
Qed.
Example C11_ex : flatten ex_fields ex_lookup [0; 1; 2; 3; 4] [(11, 5); (10, 6); (50, 1)] =
  Ok ([6], {| dyn_names := [10]; static_names := [11]; static_values := [5]; wrap_names := [3]; wrap_values := [77] |}) /\
  unflatten ex_lookup {| dyn_names := [10]; static_names := [11]; static_values := [5]; wrap_names := [3]; wrap_values := [77] |} [8] =
  Ok [(10, 8); (11, 5); (3, 77)].
Proof. split; reflexivity. Qed.

(** C12. A successful construction: [__init__] ran; every declared field is readable from the
    instance or its class; only declared fields are in [__dict__], none of them a bound method of
    the instance itself; the events are [__init__], then the converters, at most one per field
    and exactly one per field that has one unless a property hides it, then freezing, then every
    [__check_init__] of the MRO once and in order; converted fields hold the conversion of what
    [__init__] stored, the others what it stored; no [__check_init__] raised. *)
Theorem C12_construct : forall V (fields : list (field V)) lookup own i cs t d,
  init_ok fields own i -> NoDup (map f_name fields) -> construct fields lookup own i cs = (t, Ok d) ->
  exists d0 l, run_init fields lookup own i = (d0, Ok tt) /\
    (forall n, In n (map fst d) -> In n (map f_name fields)) /\
    (forall n v, aget d n = Some v -> own v = false) /\
    (forall f, In f fields -> in_dir lookup d (f_name f) = true) /\
    t = EInit :: map EConvert l ++ EFreeze :: map (fun c => ECheck (fst c)) cs /\
    NoDup l /\ (forall n, In n l -> exists f, In f fields /\ f_name f = n /\ has_conv f = true) /\
    ((forall f, In f fields -> has_conv f = true -> ~ is_prop lookup (f_name f)) ->
      l = map f_name (List.filter has_conv fields)) /\
    (forall f c v, In f fields -> f_conv f = Some c -> aget d0 (f_name f) = Some v ->
      exists w, c v = Ok w /\ aget d (f_name f) = Some w) /\
    (forall f, In f fields -> f_conv f = None -> aget d (f_name f) = aget d0 (f_name f)) /\
    Forall (fun c => snd (run lookup frozen_setattr (snd c) d) = Ok tt) cs.
Proof.
  intros V fields lookup own i cs t d HI HN H.
  destruct (construct_ok fields lookup own i cs t d HI HN H) as (d0 & l & A1 & [A2 A2'] & A3 & A4 & A5 & A6 & A7 & A8 & A9 & A10).
  exists d0, l. split; [assumption|]. split; [intros n Hn; apply A2; auto|]. split; [assumption|].
  split; [intros f Hf; apply A3; apply in_map; auto|]. do 6 (split; [assumption|]). assumption.
Qed.
Print Assumptions C12_construct.

(** A field that no class attribute provides and that is still unset is an error. *)
Theorem C12_missing : forall V (fields : list (field V)) lookup own i cs d0 d1 t1 n,
  run_init fields lookup own i = (d0, Ok tt) -> run_converters fields lookup own fields d0 = (t1, Ok d1) ->
  In n (map f_name fields) -> lookup n = CNone -> aget d1 n = None ->
  snd (construct fields lookup own i cs) = Err ValueError.
Proof. intros V. exact construct_missing. Qed.
Print Assumptions C12_missing.

(** Once [__init__] and the converters have run, the construction succeeds exactly when every
    field is set or provided by the class, every property that stands for a static field can be
    read, and every [__check_init__] passes. *)
Theorem C12_exact : forall V (fields : list (field V)) lookup own i cs d0 d1 t1 d,
  run_init fields lookup own i = (d0, Ok tt) -> run_converters fields lookup own fields d0 = (t1, Ok d1) ->
  (snd (construct fields lookup own i cs) = Ok d <->
   d = d1 /\
   (forall f, In f fields -> aget d1 (f_name f) <> None \/ lookup (f_name f) <> CNone) /\
   (forall f g, In f fields -> f_static f = true -> lookup (f_name f) = CProp g -> exists v, g d1 = Ok v) /\
   Forall (fun c => snd (run lookup frozen_setattr (snd c) d1) = Ok tt) cs).
Proof.
  intros V fields lookup own i cs d0 d1 t1 d H1 H2. unfold construct. rewrite H1, H2.
  assert (HM : missing fields lookup d1 = [] <->
    forall f, In f fields -> aget d1 (f_name f) <> None \/ lookup (f_name f) <> CNone).
  { rewrite missing_nil. unfold in_dir, field_names. split.
    - intros H f Hf. specialize (H (f_name f) (in_map _ _ _ Hf)).
      destruct (lookup (f_name f)); [|right; discriminate..].
      left. destruct (aget d1 (f_name f)); [discriminate|discriminate H].
    - intros H n Hn. apply in_map_iff in Hn as (f & <- & Hf). destruct (H f Hf) as [H'|H'].
      + destruct (lookup (f_name f)); auto. destruct (aget d1 (f_name f)); congruence.
      + destruct (lookup (f_name f)); congruence. }
  destruct (missing fields lookup d1) as [|m ms].
  2:{ cbn. split; [discriminate|]. intros (_ & H & _). apply HM in H. discriminate. }
  pose proof (proj1 HM eq_refl) as HF. clear HM.
  assert (HS : forall fs, (forall f, In f fs -> In f fields) ->
    ((exists u, read_static lookup fs d1 = Ok u) <->
     forall f g, In f fs -> f_static f = true -> lookup (f_name f) = CProp g -> exists v, g d1 = Ok v)).
  { induction fs as [|f fs IH]; intros Hin; cbn [read_static].
    - split; [intros _ f g []|eauto].
    - specialize (IH (fun f Hf => Hin f (or_intror Hf))).
      destruct (f_static f) eqn:Ef.
      + destruct (getattr lookup d1 (f_name f)) as [v|e] eqn:Eg.
        * cbn [bind]. rewrite IH. split.
          -- intros H f' g [<-|Hf] Hs Hp; [|eapply H; eauto]. unfold getattr in Eg. rewrite Hp in Eg. eauto.
          -- intros H f' g Hf. apply H. right; auto.
        * cbn [bind]. split; [intros [u Hu]; discriminate|]. intros H. exfalso.
          unfold getattr in Eg. destruct (lookup (f_name f)) as [|get|get] eqn:El.
          -- destruct (HF f (Hin f (or_introl eq_refl))) as [Hx|Hx]; [|congruence].
             destruct (aget d1 (f_name f)); congruence.
          -- destruct (aget d1 (f_name f)); discriminate.
          -- destruct (H f get (or_introl eq_refl) Ef El) as [v Hv]. congruence.
      + rewrite IH. split.
        * intros H f' g [<-|Hf] Hs; [congruence|eapply H; eauto].
        * intros H f' g Hf. apply H. right; auto. }
  specialize (HS fields (fun f Hf => Hf)).
  destruct (read_static lookup fields d1) as [u|e].
  2:{ cbn. split; [discriminate|]. intros (_ & _ & H & _). apply HS in H as [u Hu]. discriminate. }
  assert (HP := proj1 HS (ex_intro _ u eq_refl)). clear HS.
  assert (HR : forall cs, (exists u, snd (run_checks lookup cs d1) = Ok u) <->
                 Forall (fun c => snd (run lookup frozen_setattr (snd c) d1) = Ok tt) cs).
  { clear cs. induction cs as [|[c p] cs IH]; cbn [run_checks].
    - split; [constructor|]. intros _. exists tt. reflexivity.
    - destruct (snd (run lookup frozen_setattr p d1)) as [[]|e] eqn:Ep.
      + destruct (run_checks lookup cs d1) as [t r]. cbn [snd] in *. rewrite IH. split.
        * intros H. constructor; auto.
        * intros H. inversion H; auto.
      + cbn [snd]. split; [intros [u' Hu]; discriminate|]. intros H. inversion H; subst.
        cbn [snd] in *. congruence. }
  specialize (HR cs). destruct (run_checks lookup cs d1) as [t2 r]. cbn [snd] in *.
  destruct r as [u'|e]; cbn [rmap bind].
  - split.
    + intros H. injection H as <-. split; [auto|]. split; [auto|]. split; [auto|]. apply HR. eauto.
    + intros (-> & _). reflexivity.
  - split; [discriminate|]. intros (_ & _ & _ & H). apply HR in H as [? ?]. discriminate.
Qed.
Print Assumptions C12_exact.

(** A failing construction stopped before freezing or in some [__check_init__], in the same order. *)
Theorem C12_failed : forall V (fields : list (field V)) lookup own i cs t e, NoDup (map f_name fields) ->
  construct fields lookup own i cs = (t, Err e) ->
  exists l, NoDup l /\ (forall n, In n l -> exists f, In f fields /\ f_name f = n /\ has_conv f = true) /\
  (t = EInit :: map EConvert l \/
   exists cs1 c cs2, cs = cs1 ++ c :: cs2 /\
     t = EInit :: map EConvert l ++ EFreeze :: map (fun c => ECheck (fst c)) (cs1 ++ [c])).
Proof. intros V. exact construct_err. Qed.
Print Assumptions C12_failed.

(** During [__init__], whatever the program does and whether or not it raises, only declared fields
    get into [__dict__]; assigning to anything else raises. *)
Theorem C12_only_fields : forall V (fields : list (field V)) (lookup : name -> cattr V) own p n,
  In n (map fst (fst (run lookup (init_setattr lookup own (map f_name fields)) p []))) -> In n (map f_name fields).
Proof.
  intros V fields lookup own p n H. apply (proj1 (run_inv fields lookup own p [] (inv_nil fields lookup own))) in H. tauto.
Qed.
Print Assumptions C12_only_fields.
Theorem C12_undeclared_raises : forall V (fields : list (field V)) (lookup : name -> cattr V) own d n v,
  ~ In n (map f_name fields) -> init_setattr lookup own (map f_name fields) d n v = Err AttributeError.
Proof.
  intros V fields lookup own d n v H. unfold init_setattr. destruct (mem n (map f_name fields)) eqn:E; auto.
  apply mem_In in E. tauto.
Qed.
Print Assumptions C12_undeclared_raises.

(** After construction no program changes the instance, and every assignment raises. *)
Theorem C12_frozen : forall V (lookup : name -> cattr V) p d, fst (run lookup frozen_setattr p d) = d.
Proof. intros V. exact run_frozen. Qed.
Print Assumptions C12_frozen.
Theorem C12_frozen_raises : forall V (lookup : name -> cattr V) n v k d,
  run lookup frozen_setattr (Set_ n v k) d = (d, Err FrozenInstanceError).
Proof. reflexivity. Qed.
Print Assumptions C12_frozen_raises.

Definition conv_fields : list (field nat) :=
  [{| f_name := 10; f_static := false; f_conv := Some (fun v => Ok (v + 100)) |}; fld 11 true;
   {| f_name := 12; f_static := false; f_conv := Some (fun v => if Nat.eqb v 0 then Err ValueError else Ok v) |}].
Definition check11 : prog nat := Get 11 (fun r => match r with Ok 5 => Return | _ => Raise ValueError end).
Example C12_ex : construct conv_fields ex_lookup (fun _ => false)
    (Custom (Set_ 12 1 (Set_ 10 2 (TrySet 99 0 (fun r => match r with Some _ => Set_ 11 5 Return | None => Return end)))))
    [(0, check11); (1, Return)] =
  ([EInit; EConvert 10; EConvert 12; EFreeze; ECheck 0; ECheck 1], Ok [(12, 1); (10, 102); (11, 5)]).
Proof. reflexivity. Qed.
Example C12_ex_missing : construct conv_fields ex_lookup (fun _ => false) (Custom (Set_ 12 1 (Set_ 10 2 Return))) [(0, check11)] =
  ([EInit; EConvert 10; EConvert 12], Err ValueError).
Proof. reflexivity. Qed.
Example C12_ex_generated : construct conv_fields ex_lookup (fun _ => false) (Generated [(10, 1); (11, 6); (12, 3)] None) [(0, check11); (1, Return)] =
  ([EInit; EConvert 10; EConvert 12; EFreeze; ECheck 0], Err ValueError).
Proof. reflexivity. Qed.

(** C57. [module_update_wrapper] returns a new object whose fields are those of [wrapper] and whose
    wrapper attributes are those of [wrapped] where it has them, and its own otherwise. *)
Theorem C57_update_wrapper : forall V (fields : list (field V)) lookup own worder has_wrapped gw d d',
  class_ok fields lookup worder -> inst_ok lookup d ->
  update_wrapper fields lookup own worder has_wrapped gw d = Ok d' ->
  has_wrapped = true /\ (forall n, In n (map f_name fields) -> aget d' n = aget d n) /\
  (forall w v, In w worder -> gw w = Ok v -> getattr lookup d' w = Ok v) /\
  (forall w, In w worder -> (forall v, gw w <> Ok v) -> getattr lookup d' w = getattr lookup d w).
Proof. intros V. exact update_wrapper_spec. Qed.
Print Assumptions C57_update_wrapper.
Theorem C57_needs_wrapped : forall V (fields : list (field V)) lookup own worder gw d,
  update_wrapper fields lookup own worder false gw d = Err ValueError.
Proof. reflexivity. Qed.
Print Assumptions C57_needs_wrapped.
Example C57_ex : update_wrapper ex_fields ex_lookup (fun _ => false) [0; 1; 2; 3; 4] true
   (fun w => if Nat.eqb w 1 then Ok 9 else Err AttributeError) [(11, 5); (10, 6)] = Ok [(10, 6); (11, 5); (3, 77); (1, 9)].
Proof. reflexivity. Qed.

(** Assignment during construction, exactly. *)
Theorem C12_set : forall V (fields : list (field V)) (lookup : name -> cattr V) own d n v, In n (map f_name fields) ->
  init_setattr lookup own (map f_name fields) d n v =
    if own v then Err ValueError else match lookup n with CProp _ => Err AttributeError | _ => Ok (aset d n v) end.
Proof.
  intros V fields lookup own d n v H. unfold init_setattr, obj_setattr. apply mem_In in H. rewrite H. reflexivity.
Qed.
Print Assumptions C12_set.
(** The converter of a field that was not set is not run. *)
Theorem C12_unset_skipped : forall V (fields : list (field V)) (lookup : name -> cattr V) own f fs d,
  lookup (f_name f) = CNone -> aget d (f_name f) = None ->
  run_converters fields lookup own (f :: fs) d = run_converters fields lookup own fs d.
Proof.
  intros V fields lookup own f fs d H1 H2. cbn [run_converters]. destruct (f_conv f) as [conv|]; [|reflexivity].
  unfold getattr. rewrite H1, H2. reflexivity.
Qed.
Print Assumptions C12_unset_skipped.
