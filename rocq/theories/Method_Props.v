(** C97: methods of [Module]s. *)
From Verif Require Export Method_Model.

(** ** Classes by their source *)
Section Source.
  Context {L : Type}.
  Notation V := (value L).

  (** What the source gives: is it a [Module], and the last definition of each name. No source
      mentions [_wrap_method]. *)
  Definition source : Type := bool * list (string * attr L).
  Definition plain (a : attr L) : Prop := match a with AWrap _ => False | _ => True end.
  Inductive defined : class L -> source -> Prop :=
  | def_module ns : Forall (fun p => plain (snd p)) ns -> defined (new_module_class ns) (true, ns)
  | def_plain ns : Forall (fun p => plain (snd p)) ns -> defined (new_plain_class ns) (false, ns)
  | def_set c b ns k a : defined c (b, ns) -> plain a -> defined (class_setattr c k a) (b, put ns k a).
  (** The first definition along the MRO. *)
  Fixpoint first (l : list source) (k : string) : option (bool * attr L) :=
    match l with
    | [] => None
    | (b, ns) :: l' => match get ns k with Some a => Some (b, a) | None => first l' k end
    end.
  (** Names that start and end with two underscores. *)
  Definition magic (k : string) : Prop := (exists r, k = "__" ++ r)%string /\ exists r, k = (r ++ "__")%string.

  Lemma prefix_spec p k : prefix p k = true <-> exists r, k = (p ++ r)%string.
  Proof.
    revert k. induction p as [|x p IH]; intros k; cbn [prefix].
    - split; [exists k; reflexivity|destruct k; auto].
    - destruct k as [|y k]; cbn [prefix]; [split; [discriminate|intros (r & E); discriminate]|].
      destruct (Ascii.ascii_dec x y) as [->|N].
      + rewrite IH. split; intros (r & E); exists r; [rewrite E; reflexivity|injection E; auto].
      + split; [discriminate|]. intros (r & E). injection E. congruence.
  Qed.
  Lemma ends_spec e k : ends_with e k = true <-> exists r, k = (r ++ e)%string.
  Proof.
    induction k as [|y k IH]; cbn; rewrite orb_true_iff, String.eqb_eq.
    - split; [intros [->|H]; [exists EmptyString; reflexivity|discriminate]|].
      intros ([|x r] & E); [left; symmetry; exact E|discriminate].
    - rewrite IH. split.
      + intros [->|(r & ->)]; [exists EmptyString; reflexivity|exists (String y r); reflexivity].
      + intros ([|x r] & E); [left; symmetry; exact E|right]. injection E as _ ->. eauto.
  Qed.
  Lemma not_magic_spec k : not_magic k = false <-> magic k.
  Proof. unfold not_magic, magic. rewrite negb_false_iff, andb_true_iff, prefix_spec, ends_spec. reflexivity. Qed.

  Lemma get_map {X Y} (h : string -> X -> Y) d k : get (map (fun '(k, a) => (k, h k a)) d) k = option_map (h k) (get d k).
  Proof. induction d as [|[k' a] d IH]; cbn; auto. destruct (String.eqb_spec k' k) as [->|N]; auto. Qed.
  Lemma get_put {X} (d : list (string * X)) k v j : get (put d k v) j = if String.eqb k j then Some v else get d j.
  Proof.
    induction d as [|[k' a] d IH]; cbn; [destruct (String.eqb k j); reflexivity|].
    destruct (String.eqb_spec k' k) as [->|N]; cbn.
    - destruct (String.eqb_spec k j); reflexivity.
    - rewrite IH. destruct (String.eqb_spec k' j) as [->|M]; [|reflexivity].
      destruct (String.eqb_spec k j); congruence.
  Qed.
  Lemma defined_get c s : defined c s -> c_module c = fst s /\
    forall k, get (c_ns c) k = option_map (fun a => if fst s then wrap k a else a) (get (snd s) k).
  Proof.
    induction 1 as [ns _|ns _|c b ns k a _ [IH1 IH2] _]; cbn [fst snd c_module c_ns new_module_class new_plain_class class_setattr] in *.
    - split; [reflexivity|]. intros k. apply (get_map wrap).
    - split; [reflexivity|]. intros k. destruct (get ns k); reflexivity.
    - split; [exact IH1|]. intros j. rewrite !get_put, IH1. destruct (String.eqb_spec k j) as [->|N]; [reflexivity|apply IH2].
  Qed.
  Lemma get_plain (ns : list (string * attr L)) k a : Forall (fun p => plain (snd p)) ns -> get ns k = Some a -> plain a.
  Proof.
    induction 1 as [|[k' a'] ns H _ IH]; cbn; [discriminate|]. destruct (String.eqb k' k); auto. intros E. injection E as <-. exact H.
  Qed.
  Lemma defined_plain c s : defined c s -> forall k a, get (snd s) k = Some a -> plain a.
  Proof.
    induction 1 as [ns H|ns H|c b ns k a _ IH Ha]; cbn [snd] in *; intros j x Hx; [eapply get_plain; eauto..|].
    rewrite get_put in Hx. destruct (String.eqb k j); [injection Hx as <-; exact Ha|eapply IH; eauto].
  Qed.
  Lemma lookup_first l ss k : Forall2 defined l ss ->
    lookup l k = option_map (fun '(b, a) => if b : bool then wrap k a else a) (first ss k) /\
    (forall b a, first ss k = Some (b, a) -> plain a).
  Proof.
    induction 1 as [|c [b ns] l ss H _ [IH1 IH2]]; cbn [lookup first]; [split; [reflexivity|discriminate]|].
    destruct (defined_get _ _ H) as [_ E]. cbn [fst snd] in E. rewrite E. destruct (get ns k) as [a|] eqn:G; cbn; [|auto].
    split; [reflexivity|]. intros b' a' X. injection X as <- <-. exact (defined_plain _ _ H k a G).
  Qed.
End Source.

(** What [m.k] is, by the source of the classes of [m]. A property wins over [__dict__], which wins over
    everything else. A function becomes a [BoundMethod] if a [Module] class defines it under a name that
    is not magic, and Python's bound method otherwise. *)
Theorem C97_getattr : forall {L} (mro : nat -> list (class L)) fun_call c d k ss,
  Forall2 defined (mro c) ss ->
  getattr mro fun_call c d k =
  match first ss k with
  | Some (_, AProp f) => fun_call f [VInst c d] []
  | _ =>
      match get d k, first ss k with
      | Some v, _ => Ok v
      | None, None => Err AttributeError
      | None, Some (in_module, AFun f) => Ok (if in_module && not_magic k then VBound f (VInst c d) else VMethod f (VInst c d))
      | None, Some (_, AStatic f) => Ok (VFun f)
      | None, Some (_, AVal v) => Ok v
      | None, Some (_, _) => Err (OtherError 0)
      end
  end.
Proof.
  intros L mro fc c d k ss H. unfold getattr. destruct (lookup_first _ _ k H) as [-> P].
  destruct (first ss k) as [[b a]|]; cbn [option_map]; [|destruct (get d k); reflexivity].
  specialize (P b a eq_refl). destruct b, a; cbn [wrap andb] in *; try contradiction; try (destruct (not_magic k)); destruct (get d k); reflexivity.
Qed.
Print Assumptions C97_getattr.
Theorem C97_magic : forall k, not_magic k = false <-> magic k.
Proof. exact not_magic_spec. Qed.
Print Assumptions C97_magic.

(** It behaves like a Python bound method: the same classes without any wrapping give the same value or
    Python's bound method of the same function, and calls agree but for a keyword [self]. *)
Theorem C97_like_python : forall {L} (mro mro' : nat -> list (class L)) fun_call c d k ss v,
  Forall2 defined (mro c) ss -> mro' c = map (fun s => new_plain_class (snd s)) ss ->
  getattr mro fun_call c d k = Ok v ->
  exists v', getattr mro' fun_call c d k = Ok v' /\
    (v = v' \/ exists f, v = VBound f (VInst c d) /\ v' = VMethod f (VInst c d) /\
       forall args kw, has_key "self" kw = false -> call mro fun_call v args kw = call mro' fun_call v' args kw).
Proof.
  intros L mro mro' fc c d k ss v H H' E. rewrite (C97_getattr mro fc c d k ss H) in E.
  assert (G : lookup (mro' c) k = option_map snd (first ss k)).
  { rewrite H'. clear. induction ss as [|[b ns] ss IH]; cbn; [reflexivity|]. destruct (get ns k); [reflexivity|exact IH]. }
  unfold getattr. rewrite G. destruct (lookup_first _ _ k H) as [_ P].
  destruct (first ss k) as [[b a]|]; cbn [option_map snd]; [|destruct (get d k); inversion E; subst; eauto].
  specialize (P b a eq_refl).
  destruct a; cbn in P; try contradiction; try (destruct (get d k); inversion E; subst; eauto; fail).
  destruct (get d k); [inversion E; subst; eauto|]. cbn [bind_attr]. destruct (b && not_magic k); inversion E; subst; [|eauto].
  eexists. split; [reflexivity|]. right. eexists. split; [reflexivity|split; [reflexivity|]].
  intros args kw Hk. cbn. rewrite Hk. reflexivity.
Qed.
Print Assumptions C97_like_python.

(** Calling a method is calling the function of the class with the instance in front. *)
Theorem C97_call : forall {L} (mro : nat -> list (class L)) fun_call c d k ss f args kw,
  Forall2 defined (mro c) ss -> get d k = None -> first ss k = Some (true, AFun f) -> ~ magic k ->
  exists v, getattr mro fun_call c d k = Ok v /\ class_getattr mro c k = Ok (VFun f) /\
    call mro fun_call v args kw = if has_key "self" kw then Err TypeError else call mro fun_call (VFun f) (VInst c d :: args) kw.
Proof.
  intros L mro fc c d k ss f args kw H Hd Hf Hm. rewrite (C97_getattr mro fc c d k ss H), Hf, Hd.
  assert (N : not_magic k = true). { destruct (not_magic k) eqn:E; auto. exfalso. apply Hm. apply not_magic_spec. exact E. }
  rewrite N. cbn [andb]. eexists. split; [reflexivity|]. split; [|reflexivity].
  unfold class_getattr. destruct (lookup_first _ _ k H) as [-> _]. rewrite Hf. cbn. rewrite N. reflexivity.
Qed.
Print Assumptions C97_call.
(** Calling an instance runs the [__call__] of its classes on it, whatever its [__dict__] holds, and accepts any keyword; without
    one it is refused. An attribute
    that no class defines is missing on the class. *)
Theorem C97_instance_call : forall {L} (mro : nat -> list (class L)) fun_call c d ss args kw, Forall2 defined (mro c) ss ->
  (forall b f, first ss "__call__" = Some (b, AFun f) -> call mro fun_call (VInst c d) args kw = fun_call f (VInst c d :: args) kw) /\
  (forall b f, first ss "__call__" = Some (b, AStatic f) -> call mro fun_call (VInst c d) args kw = fun_call f args kw) /\
  (first ss "__call__" = None -> call mro fun_call (VInst c d) args kw = Err TypeError) /\
  (forall k, first ss k = None -> class_getattr mro c k = Err AttributeError) /\
  (forall a, call mro fun_call (VLeaf a) args kw = Err TypeError).
Proof.
  intros L mro fc c d ss args kw H. cbn [call]. destruct (lookup_first _ _ "__call__" H) as [E _]. rewrite E.
  split; [|split; [|split; [|split; [|reflexivity]]]].
  - intros b f F. rewrite F. destruct b; reflexivity.
  - intros b f F. rewrite F. destruct b; reflexivity.
  - intros F. rewrite F. reflexivity.
  - intros k F. unfold class_getattr. destruct (lookup_first _ _ k H) as [-> _]. rewrite F. reflexivity.
Qed.
Print Assumptions C97_instance_call.
(** Python's own bound methods take a keyword [self] if the function does. *)
Theorem C97_keyword_self_refuted : exists (fun_call : nat -> list (value nat) -> list (string * value nat) -> res (value nat)) f m kw,
  call (fun _ => []) fun_call (VBound f m) [] kw = Err TypeError /\
  call (fun _ => []) fun_call (VMethod f m) [] kw = Ok m.
Proof.
  exists (fun _ args _ => match args with [a] => Ok a | _ => Err TypeError end), 0, (VLeaf 5), [("self"%string, VLeaf 1)].
  split; reflexivity.
Qed.
Print Assumptions C97_keyword_self_refuted.

(** As a pytree, a method has the leaves of its instance, and mapping over the method is taking the
    method of the mapped instance: gradients, updates and transformations reach the parameters. *)
Theorem C97_pytree : forall {L} (mro : nat -> list (class L)) is_static fun_call c d k ss f g,
  Forall2 defined (mro c) ss -> get d k = None -> first ss k = Some (true, AFun f) -> ~ magic k ->
  exists v d', getattr mro fun_call c d k = Ok v /\ vleaves is_static v = vleaves is_static (VInst c d) /\
    vmap is_static g (VInst c d) = VInst c d' /\ getattr mro fun_call c d' k = Ok (vmap is_static g v).
Proof.
  intros L mro st fc c d k ss f g H Hd Hf Hm.
  assert (N : not_magic k = true). { destruct (not_magic k) eqn:E; auto. exfalso. apply Hm. apply not_magic_spec. exact E. }
  exists (VBound f (VInst c d)), (map (fun '(k, w) => (k, if st c k then w else vmap st g w)) d).
  rewrite !(C97_getattr mro fc c _ k ss H), Hf, N, Hd. cbn [andb]. repeat split.
  replace (get (map (fun '(k, w) => (k, if st c k then w else vmap st g w)) d) k) with (@None (value L)); [reflexivity|].
  symmetry. rewrite (get_map (fun k w => if st c k then w else vmap st g w)), Hd. reflexivity.
Qed.
Print Assumptions C97_pytree.

(** Not all methods: those with magic names, such as [__call__], and those inherited from a class that is
    no [Module] are single leaves, and mapping does not reach into them. *)
Theorem C97_all_refuted : forall {L} (mro : nat -> list (class L)) is_static fun_call c d k ss b f g,
  Forall2 defined (mro c) ss -> get d k = None -> first ss k = Some (b, AFun f) -> magic k \/ b = false ->
  exists v, getattr mro fun_call c d k = Ok v /\ vleaves is_static v = [v] /\ vmap is_static g v = g v /\
    forall args kw, call mro fun_call v args kw = fun_call f (VInst c d :: args) kw.
Proof.
  intros L mro st fc c d k ss b f g H Hd Hf Hm. exists (VMethod f (VInst c d)).
  rewrite (C97_getattr mro fc c d k ss H), Hf, Hd.
  replace (b && not_magic k) with false; [repeat split|].
  destruct Hm as [Hm| ->]; [|reflexivity]. apply not_magic_spec in Hm. rewrite Hm, andb_false_r. reflexivity.
Qed.
Print Assumptions C97_all_refuted.

(** Class 0 is a [Module] with methods [f] and [__call__] (functions 1 and 2) and a mixin with [h]
    (function 3); its instances have the field [w]. Function 1 returns its argument in place of [w]. *)
Definition ex_ss : list (source (L := nat)) :=
  [(true, [("f", AFun 1); ("__call__", AFun 2)])%string; (false, [("h"%string, AFun 3)])].
Definition ex_mro (c : nat) : list (class nat) :=
  [new_module_class [("f"%string, AFun 1); ("__call__"%string, AFun 2)]; new_plain_class [("h"%string, AFun 3)]].
Definition ex_call (f : nat) (args : list (value nat)) (kw : list (string * value nat)) : res (value nat) :=
  match args with VInst c d :: a :: _ => Ok (VInst c (put d "w"%string a)) | _ => Err TypeError end.
Example C97_ex_defined : Forall2 defined (ex_mro 0) ex_ss.
Proof. repeat constructor. Qed.
Example C97_ex :
  let m := VInst 0 [("w"%string, VLeaf 7)] in
  getattr ex_mro ex_call 0 [("w"%string, VLeaf 7)] "f" = Ok (VBound 1 m)
  /\ getattr ex_mro ex_call 0 [("w"%string, VLeaf 7)] "__call__" = Ok (VMethod 2 m)
  /\ getattr ex_mro ex_call 0 [("w"%string, VLeaf 7)] "h" = Ok (VMethod 3 m)
  /\ call ex_mro ex_call (VBound 1 m) [VLeaf 9] [] = Ok (VInst 0 [("w"%string, VLeaf 9)])
  /\ vleaves (fun _ _ => false) (VBound 1 m) = [VLeaf 7]
  /\ vmap (fun _ _ => false) (fun _ => VLeaf 0) (VBound 1 m) = VBound 1 (VInst 0 [("w"%string, VLeaf 0)])
  /\ magic "__call__" /\ ~ magic "f".
Proof.
  repeat split; try reflexivity; try (apply C97_magic; reflexivity).
  intros H. apply C97_magic in H. discriminate.
Qed.
