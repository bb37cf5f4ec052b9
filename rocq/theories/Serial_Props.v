(** C20, C21, C61: serialisation. *)
From Verif Require Import Serial_Model Serial_Spec Serial_Proofs Serial_Proofs2.
Open Scope Z_scope.

(** Conversions that change nothing when the type does not change. *)
Definition faithful (cast : dty -> dty -> Z -> Z) (ctor : target -> dty -> Z -> res Z) : Prop :=
  (forall d v, cast d d v = v) /\
  (forall d v, np_storable d \/ d = DBF16 -> ctor (TNp d) d v = Ok v) /\
  (forall k v, int_fits k v -> ctor (TPy k) (py_dtype k v) v = Ok v).
Definition cast0 : dty -> dty -> Z -> Z := fun _ _ v => v.
Definition ctor0 : target -> dty -> Z -> res Z := fun _ _ v => Ok v.
Example faithful_ex : faithful cast0 ctor0.
Proof. repeat split; auto. Qed.
Definition no_leaf : obj -> bool := fun _ => false.

(** ** C20 *)
Theorem C20_round_trip : forall x64 cast ctor isl t like o, faithful cast ctor ->
  side_by_side isl (expected x64) t like o ->
  exists f, serialise isl (Leaf default_ser) t = POk f /\
            forall rest, deserialise isl (Leaf (default_des x64 cast ctor)) like (f ++ rest) = POk (o, rest).
Proof.
  intros x64 cast ctor isl t like o (H1 & H2 & H3) H. apply roundtrip_specs. apply ST_leaf. eapply side_impl; [|exact H].
  intros t' l' o' HE. destruct (expected_trips x64 cast ctor H1 H2 H3 t' l' o' HE) as [HA HB]. split; [exact HA|]. apply assert_same_ok in HB. exact HB.
Qed.
Print Assumptions C20_round_trip.
Theorem C20_round_trip_specs : forall isl hs gs t like o, specs_trip isl hs gs t like o ->
  exists f, serialise isl hs t = POk f /\ forall rest, deserialise isl gs like (f ++ rest) = POk (o, rest).
Proof. exact roundtrip_specs. Qed.
Print Assumptions C20_round_trip_specs.

(** A JAX array, a Python float, something without data, a NumPy array, a NumPy scalar, [None]. *)
Definition tr (v : Z) (n : nat) : obj :=
  Node 1%nat [Leaf (JArr {| sh := [2%nat]; dt := DBF16; dat := [v; v + 1] |}); Node 2%nat [Leaf (Py KFloat v); TNone; Leaf (Other n)];
              Leaf (NArr {| sh := []; dt := DI64; dat := [v] |}); Leaf (NGen DF32 v)].
Example C20_ex : side_by_side no_leaf (expected false) (tr 5 1) (tr 0 2) (tr 5 2) /\
  serialise no_leaf (Leaf default_ser) (tr 5 1) = POk [Rec {| sh := [2%nat]; dt := DV2; dat := [5; 6] |}; Rec {| sh := []; dt := DF64; dat := [5] |};
     Rec {| sh := []; dt := DI64; dat := [5] |}; Rec {| sh := []; dt := DF32; dat := [5] |}].
Proof.
  split; [|reflexivity]. apply SS_node; auto. apply SL_cons; [apply SS_leaf; auto; apply X_jax; auto; split; [right; auto|intros _; cbn; intuition congruence]|].
  apply SL_cons; [apply SS_node; auto; apply SL_cons; [apply SS_leaf; auto; apply X_py; exact I|]; apply SL_cons; [apply SS_none; auto|]; apply SL_cons; [|apply SL_nil];
    apply SS_leaf; auto; apply X_other; auto|].
  apply SL_cons; [apply SS_leaf; auto; apply X_np; auto; unfold np_storable; cbn; intuition congruence|].
  apply SL_cons; [|apply SL_nil]. apply SS_leaf; auto. apply X_gen. left. unfold np_storable; cbn; intuition congruence.
Qed.
(** Different functions for the two children: the first is not stored at all, the second in two records. *)
Definition skip_ser : ser := fun _ => Ok [].
Definition skip_des : des := fun f x => Ok (x, f).
Definition twice_ser : ser := fun x => match x with Leaf (JArr a) => Ok [Rec a; Rec a] | _ => Err TypeError end.
Definition twice_des : des := fun f x => match f with Rec a :: Rec b :: f' => Ok (Leaf (JArr b), f') | _ => Err ValueError end.
Example C20_specs_ex : forall a b : nd, sh a = sh b -> dt a = dt b ->
  specs_trip no_leaf (Node 0%nat [Leaf skip_ser; Leaf twice_ser]) (Node 0%nat [Leaf skip_des; Leaf twice_des])
    (Node 0%nat [Leaf (Py KInt 3); Leaf (JArr a)]) (Node 0%nat [Leaf (Other 7%nat); Leaf (JArr b)]) (Node 0%nat [Leaf (Other 7%nat); Leaf (JArr a)]).
Proof.
  intros a b Hs Hd. apply ST_node; auto. apply SPL_cons; [apply ST_leaf, SS_leaf; auto; split; [exists []; auto|split; [reflexivity|discriminate]]|].
  apply SPL_cons; [|apply SPL_nil]. apply ST_leaf, SS_leaf; auto. split; [exists [Rec a; Rec a]; auto|]. split; [reflexivity|]. intros _. cbn. congruence.
Qed.

(** What does not make the round trip; none of it silently. Python integers of 64 bits and more are
    saved, but cannot be loaded. *)
Theorem C20_big_int_refuted : exists v, forall x64 cast ctor, exists f,
  serialise no_leaf (Leaf default_ser) (Leaf (Py KInt v)) = POk f /\
  deserialise no_leaf (Leaf (default_des x64 cast ctor)) (Leaf (Py KInt v)) f = PPath [].
Proof. exists (2 ^ 64). intros x64 cast ctor. eexists. split; vm_compute; reflexivity. Qed.
Print Assumptions C20_big_int_refuted.
(** A NumPy array of bfloat16 comes back as raw data and is refused; so does a JAX array of float8. *)
Theorem C20_np_bfloat16_refuted : exists a, dt a = DBF16 /\ forall x64 cast ctor, exists f,
  serialise no_leaf (Leaf default_ser) (Leaf (NArr a)) = POk f /\
  deserialise no_leaf (Leaf (default_des x64 cast ctor)) (Leaf (NArr a)) f = PRaise RuntimeError.
Proof. exists {| sh := []; dt := DBF16; dat := [1] |}. split; [auto|]. intros x64 cast ctor. eexists. split; vm_compute; reflexivity. Qed.
Print Assumptions C20_np_bfloat16_refuted.
Theorem C20_float8_refuted : exists a, dt a = DF8 /\ forall x64 cast ctor, exists f,
  serialise no_leaf (Leaf default_ser) (Leaf (JArr a)) = POk f /\
  deserialise no_leaf (Leaf (default_des x64 cast ctor)) (Leaf (JArr a)) f = PRaise RuntimeError.
Proof. exists {| sh := []; dt := DF8; dat := [1] |}. split; [auto|]. intros x64 cast ctor. eexists. split; vm_compute; reflexivity. Qed.
Print Assumptions C20_float8_refuted.
(** Typed PRNG keys cannot be saved. *)
Theorem C20_key_refuted : exists a, serialise no_leaf (Leaf default_ser) (Leaf (JArr a)) = PPath [].
Proof. exists {| sh := []; dt := DKey; dat := [1] |}. vm_compute. reflexivity. Qed.
Print Assumptions C20_key_refuted.

(** ** C21: for every file, and every specification. *)
Theorem C21_checked : forall isl gs like f out f',
  deserialise isl gs like f = POk (out, f') -> agrees isl out like.
Proof.
  intros isl gs like f out f' H. unfold deserialise in H. destruct (negb _); [discriminate|]. destruct (omap2 _ [] gs like f) as [[o s]|q|e]; try discriminate.
  destruct (tmap2 isl assert_same o like) as [r|e] eqn:E; [|discriminate]. injection H as -> _. eapply assert_agrees. eauto.
Qed.
Print Assumptions C21_checked.
Theorem C21_structure : forall isl gs like f out f',
  deserialise isl gs like f = POk (out, f') -> same_structure isl like out.
Proof.
  intros isl gs like f out f' H. unfold deserialise in H. destruct (is_prefix gs like) eqn:EP; [|discriminate]. cbn [negb] in H.
  destruct (omap2 (fun (h : des) x s => omap isl h [] x s) [] gs like f) as [[o s]|q|e] eqn:EO; try discriminate.
  destruct (tmap2 isl assert_same o like) as [r|e] eqn:E; [|discriminate]. injection H as -> _.
  eapply (omap2_structure isl (fun h : des => h)); [exact EP|exact EO].
Qed.
Print Assumptions C21_structure.
(** Scalars are converted to the type of [like], whatever the file holds: here a float in an int leaf.
    [ctor] truncates as Python's [int] does. *)
Theorem C21_scalar_converts : forall x64 cast (ctor : target -> dty -> Z -> res Z) v w, ctor (TPy KInt) DF64 v = Ok w ->
  exists f, serialise no_leaf (Leaf default_ser) (Leaf (Py KFloat v)) = POk f /\
    deserialise no_leaf (Leaf (default_des x64 cast ctor)) (Leaf (Py KInt 0)) f = POk (Leaf (Py KInt w), []).
Proof. intros x64 cast ctor v w H. eexists. split; [vm_compute; reflexivity|]. unfold deserialise, at_leaf. cbn. unfold at_leaf. cbn. rewrite H. auto. Qed.
Print Assumptions C21_scalar_converts.
(** An array of one element is likewise accepted for a scalar. *)
Theorem C21_scalar_shape_converts : forall x64 cast ctor a v w d, sh a = [1%nat; 1%nat] -> dt a = d -> dat a = [v] -> np_storable d -> ctor (TPy KFloat) d v = Ok w ->
  deserialise no_leaf (Leaf (default_des x64 cast ctor)) (Leaf (Py KFloat 0)) [Rec a] = POk (Leaf (Py KFloat w), []).
Proof.
  intros x64 cast ctor [s d' dd] v w d Hs Hd Hv Hn Hc. cbn [sh dt dat] in *. subst. unfold deserialise. cbn. unfold at_leaf. cbn.
  destruct d; try (exfalso; apply Hn; cbn; tauto); cbn; rewrite Hc; auto.
Qed.
Print Assumptions C21_scalar_shape_converts.
(** Arrays of 64 bits are narrowed to a [like] of 32 bits without a word when [x64] is off. *)
Definition narrower : list (dty * dty) := [(DI64, DI32); (DU64, DU32); (DF64, DF32); (DC128, DC64)].
Theorem C21_narrows : forall cast ctor d d' s vs ws, In (d, d') narrower -> exists f,
  serialise no_leaf (Leaf default_ser) (Leaf (JArr {| sh := s; dt := d; dat := vs |})) = POk f /\
  deserialise no_leaf (Leaf (default_des false cast ctor)) (Leaf (JArr {| sh := s; dt := d'; dat := ws |})) f =
    POk (Leaf (JArr {| sh := s; dt := d'; dat := map (cast d d') vs |}), []).
Proof.
  intros cast ctor d d' s vs ws H.
  repeat (destruct H as [[= <- <-]|H]; [eexists; split; [reflexivity|]; cbv - [map list_eq_dec Nat.eq_dec]; destruct (list_eq_dec Nat.eq_dec s s); [reflexivity|contradiction]|]).
  destruct H.
Qed.
Print Assumptions C21_narrows.
(** Superfluous records are not noticed. *)
Theorem C21_trailing : exists t like, forall x64 cast ctor, exists f out r,
  serialise no_leaf (Leaf default_ser) t = POk f /\
  deserialise no_leaf (Leaf (default_des x64 cast ctor)) like f = POk (out, [r]).
Proof.
  exists (Node 0%nat [Leaf (NArr {| sh := []; dt := DI32; dat := [1] |}); Leaf (NArr {| sh := []; dt := DI32; dat := [2] |})]), (Node 0%nat [Leaf (NArr {| sh := []; dt := DI32; dat := [0] |})]).
  intros x64 cast ctor. do 3 eexists. split; vm_compute; reflexivity.
Qed.
Print Assumptions C21_trailing.
Example C21_ex : forall x64 ctor,
  deserialise no_leaf (Leaf (default_des x64 cast0 ctor)) (Leaf (JArr {| sh := [2%nat]; dt := DF32; dat := [0; 0] |})) [Rec {| sh := [1%nat]; dt := DF32; dat := [1] |}] = PRaise RuntimeError /\
  deserialise no_leaf (Leaf (default_des x64 cast0 ctor)) (Leaf (SDS [1%nat] DI32)) [Rec {| sh := [1%nat]; dt := DF32; dat := [1] |}] = PRaise RuntimeError /\
  deserialise no_leaf (Leaf (default_des x64 cast0 ctor)) (Leaf (NArr {| sh := [1%nat]; dt := DI32; dat := [0] |})) [Rec {| sh := [1%nat]; dt := DF32; dat := [1] |}] = PRaise RuntimeError /\
  deserialise no_leaf (Leaf (default_des x64 cast0 ctor)) (Leaf (SDS [1%nat] DF32)) [Rec {| sh := [1%nat]; dt := DF32; dat := [1] |}] = POk (Leaf (JArr {| sh := [1%nat]; dt := DF32; dat := [1] |}), []) /\
  deserialise no_leaf (Leaf (default_des x64 cast0 ctor)) (Leaf (SDS [1%nat] DF32)) [Junk] = PPath [] /\
  deserialise no_leaf (Leaf (default_des x64 cast0 ctor)) (Leaf (SDS [1%nat] DF32)) [] = PPath [].
Proof. intros [] ctor; vm_compute; auto 10. Qed.

(** ** C61: the path of a [TreePathError] leads to a leaf whose function failed. *)
Theorem C61_save_path : forall isl hs t q, serialise isl hs t = PPath q ->
  exists p1 p2 h y e, q = p1 ++ p2 /\ sub hs p1 = Some (Leaf h) /\ sub t q = Some y /\ leafy isl y = true /\ h y = Err e.
Proof.
  intros isl hs t q H. unfold serialise in H. destruct (negb _); [discriminate|].
  destruct (omap2 _ [] hs t []) as [[o s]|q'|e] eqn:EO in H; try discriminate. injection H as ->.
  apply (omap2_path isl (fun (h : ser) s y => r <- h y ;; Ok (TNone, s ++ r))) in EO as (p1 & p2 & y & h & s' & e & -> & Hh & Hy & HL & He).
  cbn [app] in *. exists p1, p2, h, y, e. do 4 (split; [auto|]). destruct (h y); [discriminate|]. cbn in He. congruence.
Qed.
Print Assumptions C61_save_path.
Theorem C61_load_path : forall isl gs like f q, deserialise isl gs like f = PPath q ->
  exists p1 p2 g y s e, q = p1 ++ p2 /\ sub gs p1 = Some (Leaf g) /\ sub like q = Some y /\ leafy isl y = true /\ g s y = Err e.
Proof.
  intros isl gs like f q H. unfold deserialise in H. destruct (negb _); [discriminate|].
  destruct (omap2 (fun (h : des) x s => omap isl h [] x s) [] gs like f) as [[o s]|q'|e] eqn:EO; try discriminate; [destruct (tmap2 _ _ _ _); discriminate|]. injection H as ->.
  apply (omap2_path isl (fun h : des => h)) in EO as (p1 & p2 & y & h & s' & e & -> & Hh & Hy & HL & He). exists p1, p2, h, y, s', e. auto.
Qed.
Print Assumptions C61_load_path.
(** All other exceptions: the specification is no prefix of the tree, or the final comparison failed. *)
Theorem C61_other : forall isl hs gs t like f e,
  (serialise isl hs t = PRaise e -> e = ValueError /\ is_prefix hs t = false) /\
  (deserialise isl gs like f = PRaise e -> is_prefix gs like = false \/ exists o f', omap2 (fun (h : des) x s => omap isl h [] x s) [] gs like f = POk (o, f') /\ same_structure isl like o).
Proof.
  intros isl hs gs t like f e. split; intros H.
  - unfold serialise in H. destruct (is_prefix hs t); cbn [negb] in H; [|injection H as <-; auto].
    destruct (omap2 _ [] hs t []) as [[o s]|q'|e'] eqn:EO in H; try discriminate. destruct (omap2_noraise _ _ _ _ _ _ EO).
  - unfold deserialise in H. destruct (is_prefix gs like) eqn:EP; cbn [negb] in H; [|auto]. right.
    destruct (omap2 (fun (h : des) x s => omap isl h [] x s) [] gs like f) as [[o s]|q'|e'] eqn:EO; try discriminate; [|destruct (omap2_noraise _ _ _ _ _ _ EO)].
    exists o, s. split; [auto|]. eapply (omap2_structure isl (fun h : des => h)); [exact EP|exact EO].
Qed.
Print Assumptions C61_other.
Example C61_ex :
  deserialise no_leaf (Node 1%nat [Leaf skip_des; Leaf (default_des false cast0 ctor0); Leaf skip_des; Leaf skip_des]) (tr 0 0) [Junk] = PPath [1%nat; 0%nat] /\
  serialise no_leaf (Leaf twice_ser) (tr 0 0) = PPath [1%nat; 0%nat] /\
  serialise no_leaf (Node 0%nat [Leaf twice_ser]) (tr 0 0) = PRaise ValueError.
Proof. split; [|split]; vm_compute; reflexivity. Qed.
